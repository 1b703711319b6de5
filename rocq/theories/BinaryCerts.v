(** Certificates for the binary fields: for each field polynomial, a matrix
    that undoes z |-> z + z^2 up to a constant (so 0 and 1 are the only
    idempotents).  Generated; checked by computation. *)
From Coq Require Import NArith List.
Import ListNotations.
Open Scope N_scope.

Definition cert32 : list N := [
0x688fb702;
0x961d90d6;
0x961d90d4;
0x6da8f3b4;
0x961d90d0;
0x7fa0646c;
0x6da8f3bc;
0x1668a37c;
0x961d90c0;
0x102438c;
0x7fa0644c;
0xfe932ec0;
0x6da8f3fc;
0x8513668c;
0x1668a3fc;
0x970f574c;
0x961d91c0;
0x2104c;
0x102418c;
0xfbbd23fc;
0x7fa0604c;
0x7aa728b0;
0xfe9326c0;
0x16fc24fc;
0x6da8e3fc;
0xf8af6270;
0x8513468c;
0x7314c700;
0x1668e3fc;
0xacc7818c;
0x970fd74c;
0x0].
Definition cert64 : list N := [
0x19c9369f278adc02;
0x84b2b22ab2383ee4;
0x84b2b22ab2383ee6;
0x9d7b84b495b3e3f6;
0x84b2b22ab2383ee2;
0x37c470b49213f790;
0x9d7b84b495b3e3fe;
0x1000a0105137c;
0x84b2b22ab2383ef2;
0x368e964a8edce1fc;
0x37c470b49213f7b0;
0x19c9368e278fdf4c;
0x9d7b84b495b3e3be;
0x2e4da23cbc7d4570;
0x1000a010513fc;
0x84f35772bac24232;
0x84b2b22ab2383ff2;
0x37c570ba9314e4fc;
0x368e964a8edce3fc;
0xb377c390213cdb0e;
0x37c470b49213f3b0;
0x85ed5a3aa99c24f2;
0x19c9368e278fd74c;
0xaabff0000780000e;
0x9d7b84b495b3f3be;
0x84b6b3dab03038f2;
0x2e4da23cbc7d6570;
0x511ea03494ffc;
0x1000a010553fc;
0xae0c0220343c6c0e;
0x84f35772bac2c232;
0x800000008000000e;
0x84b2b22ab2393ff2;
0xb376c29c202bc97e;
0x37c570ba9316e4fc;
0x9c3062488879e6ce;
0x368e964a8ed8e3fc;
0x41e42c08e47e70;
0xb377c3902134db0e;
0x85b9b108a60f56ce;
0x37c470b49203f3b0;
0x19dd3b6e21f3cb4c;
0x85ed5a3aa9bc24f2;
0x198ddf682c428ac0;
0x19c9368e27cfd74c;
0x4b7c68431ca84b0;
0xaabff0000700000e;
0x8040655489ffefbe;
0x9d7b84b494b3f3be;
0x18c1354e32bfa74c;
0x84b6b3dab23038f2;
0xaaf613cc0f74627e;
0x2e4da23cb87d6570;
0x3248b3d6b3342a8c;
0x511ea0b494ffc;
0xb60813c00e70700e;
0x1000a110553fc;
0x1e0d022a05393ffc;
0xae0c0220143c6c0e;
0xe0c0220143c6c00;
0x84f35772fac2c232;
0x0;
0x800000000000000e;
0xc041e55948fbfdce].
Definition cert128 : list N := [
0x295ac0b1f4731af9676aac9fa4b20b08;
0xe5da5595ee970b89929959af766af404;
0xe5da5595ee970b89929959af766af406;
0x4e9826c74350bfe67783f7333404a20c;
0xe5da5595ee970b89929959af766af402;
0x2aaea79ad7da34b07dc714cb83074e6a;
0x4e9826c74350bfe67783f7333404a204;
0xcc8095241ae41171f5f3f531d2d9fe18;
0xe5da5595ee970b89929959af766af412;
0x4e983687d159ce9677cb862e8ac85b44;
0x2aaea79ad7da34b07dc714cb83074e4a;
0xaae2ab6aaf144aaff73fcb3c06aaff56;
0x4e9826c74350bfe67783f7333404a244;
0xe62f327ccd5792dd893fe9ca40603f62;
0xcc8095241ae41171f5f3f531d2d9fe98;
0xab52f0323f47c90be1336bc7d453b626;
0xe5da5595ee970b89929959af766af512;
0x2abe34bad75338b479a6a089abf4573a;
0x4e983687d159ce9677cb862e8ac85944;
0x1e8ccb9dcc72f2e1a9cbef8232562fc;
0x2aaea79ad7da34b07dc714cb83074a4a;
0x2442c3221f3dc1a0ce869b24a80e48c;
0xaae2ab6aaf144aaff73fcb3c06aaf756;
0xcf64612f39c4323deb3ff936dd9aa228;
0x4e9826c74350bfe67783f7333404b244;
0xcc911696880d4909f0d5382a57572458;
0xe62f327ccd5792dd893fe9ca40601f62;
0x4d7cd7cc29d28cf2697f6478e5db2834;
0xcc8095241ae41171f5f3f531d2d9be98;
0xccc99127569146a7fc0956ca1a5b86a4;
0xab52f0323f47c90be1336bc7d4533626;
0x65cece94dacd5b1c14f5986b001eeb82;
0xe5da5595ee970b89929959af766bf512;
0x2b0e7fa2d509ca746fe27169c7c3e73a;
0x2abe34bad75338b479a6a089abf6573a;
0x65df4d264824132411d3553885980142;
0x4e983687d159ce9677cb862e8acc5944;
0xcf74f70e70ef2af7ef6fd21d2af671a4;
0x1e8ccb9dcc72f2e1a9cbef8232d62fc;
0xcec4b9173b16cdf9f91a9d8499490f58;
0x2aaea79ad7da34b07dc714cb83174a4a;
0x83f16f99175f624799a6cf206b513bdc;
0x2442c3221f3dc1a0ce869b24aa0e48c;
0x3f562a96a2aa9081b9e27ebe84671c0;
0xaae2ab6aaf144aaff73fcb3c06eaf756;
0xccc9c07ae11bcce3fcd6d526cddeebd4;
0xcf64612f39c4323deb3ff936dd1aa228;
0xa95fc803c09556f7e461dfebe8467196;
0x4e9826c74350bfe67783f7333504b244;
0x4cdc1ab0f0ab5b2e7b20ee03c15c7384;
0xcc911696880d4909f0d5382a55572458;
0xaaba68961da11d79fb48c8c7fe68cf6a;
0xe62f327ccd5792dd893fe9ca44601f62;
0xe5db5416ee209847938b5c70638d3bee;
0x4d7cd7cc29d28cf2697f6478eddb2834;
0x6437818b95e2e76e0b49fa26a7e512ce;
0xcc8095241ae41171f5f3f531c2d9be98;
0x4cd9020746184ba27868a299022ddf34;
0xccc99127569146a7fc0956ca3a5b86a4;
0x824171dcefbe4a8b8f1d24e407e8e76c;
0xab52f0323f47c90be1336bc794533626;
0xe62e22af1f6bf32b88711e202cdc3b5e;
0x65cece94dacd5b1c14f5986b801eeb82;
0x83f4672b23a92e499aadb85427b54520;
0xe5da5595ee970b89929959ae766bf512;
0x1040920971720048711dbeccf94c;
0x2b0e7fa2d509ca746fe2716bc7c3e73a;
0x81edd40a7a7437cb99d6b267d0d7976c;
0x2abe34bad75338b479a6a08dabf6573a;
0xe46a1e8deccdf96d84dd884d1a5d4462;
0x65df4d264824132411d3553085980142;
0x804c1cb1eac70f698ab1aeeb3a605920;
0x4e983687d159ce9677cb863e8acc5944;
0xa94f4b3252499e01e04514377dbd55aa;
0xcf74f70e70ef2af7ef6fd23d2af671a4;
0xe7d77da5831189d3978a93f3f56f619e;
0x1e8ccb9dcc72f2e1a9cbeb8232d62fc;
0x4cdd0f362b68e52a7a5109eab0a16ef4;
0xcec4b9173b16cdf9f91a9d0499490f58;
0xe4329c3d7bf233698830781e88d05912;
0x2aaea79ad7da34b07dc715cb83174a4a;
0x82082082597387418618bcbfcff334e0;
0x83f16f99175f624799a6cd206b513bdc;
0x294b124ed1181a846297e291f4adcc3a;
0x2442c3221f3dc1a0ce86db24aa0e48c;
0xe78fff41144664939b696b666550119e;
0x3f562a96a2aa9081b9e2febe84671c0;
0xcd78dbfd54a1436beb568d9e63d55a14;
0xaae2ab6aaf144aaff73fdb3c06eaf756;
0xccdd4e7b1ce38d0ffacabbbeed722b64;
0xccc9c07ae11bcce3fcd6f526cddeebd4;
0x3e5e1ccb1bf89c61fb4754fa43bbf3c;
0xcf64612f39c4323deb3fb936dd1aa228;
0xe5da00893461b455926f68f4172caea2;
0xa95fc803c09556f7e4615febe8467196;
0xe78ae2a77b3e87b1981cf1dccb9d1fd2;
0x4e9826c74350bfe67782f7333504b244;
0x2912d4222a675b0a6fd777b6c15f72c6;
0x4cdc1ab0f0ab5b2e7b22ee03c15c7384;
0xe7d6682e58d237f196f8740f85956fd2;
0xcc911696880d4909f0d1382a55572458;
0xab4366b0764a0b4be46143c933474626;
0xaaba68961da11d79fb40c8c7fe68cf6a;
0xe7d77d718378aeb397849bb7f7de0d9e;
0xe62f327ccd5792dd892fe9ca44601f62;
0x64231d9efb5729d60d13f9bd382e380e;
0xe5db5416ee20984793ab5c70638d3bee;
0x81b51ab7a5fe1499959811bd9a557220;
0x4d7cd7cc29d28cf2693f6478eddb2834;
0x295ab4bb43072c12678a4ee975a08406;
0x6437818b95e2e76e0bc9fa26a7e512ce;
0xab0eead38eb165ebef9e1acd25989a26;
0xcc8095241ae41171f4f3f531c2d9be98;
0x3ba7996db230c0010185b9b29b00000;
0x4cd9020746184ba27a68a299022ddf34;
0x8210932010890d058261f45338765990;
0xccc99127569146a7f80956ca3a5b86a4;
0x2a88e0fbb92f0c2c7f14722e3db361fa;
0x824171dcefbe4a8b871d24e407e8e76c;
0x29b11e87b8989fd86fb067f47d17578a;
0xab52f0323f47c90bf1336bc794533626;
0x0;
0xe62e22af1f6bf32ba8711e202cdc3b5e;
0x862e22af1f6bf32ba8711e202cdc3b6c;
0x65cece94dacd5b1c54f5986b801eeb82;
0x8e8cbdc6770aef73b1ef36f7c270bdac;
0x83f4672b23a92e491aadb85427b54520;
0x38b21c09fae1613c0db7ed8c3891e6fa].
Definition cert192 : list N := [
0x824529f438793366eb9ecf108dd13746de3f68d1db2e8362;
0x5ccaddd7f44f1a7dc4332c0e6aa1d2824ef9328c9871a6;
0x5ccaddd7f44f1a7dc4332c0e6aa1d2824ef9328c9871a4;
0x4e9d3b31bc0d9af066b4294274f22e1e620e4336294a637c;
0x5ccaddd7f44f1a7dc4332c0e6aa1d2824ef9328c9871a0;
0xce9823d61aa33c2de0afda9df7b62519ac22b24301b97a08;
0x4e9d3b31bc0d9af066b4294274f22e1e620e4336294a6374;
0xccd812c58474a9968d2ae653f9231958bc302be7f364f054;
0x5ccaddd7f44f1a7dc4332c0e6aa1d2824ef9328c9871b0;
0x294b031e47dbbce06b96003c62cbb84a5e6a4c685412e4fa;
0xce9823d61aa33c2de0afda9df7b62519ac22b24301b97a28;
0x8255fecc0190cdb500b7423d891417e3053640a6375bbb50;
0x4e9d3b31bc0d9af066b4294274f22e1e620e4336294a6334;
0x3a8acb6e0d60147ed29287c14df7bc090746c1079dfa7b0;
0xccd812c58474a9968d2ae653f9231958bc302be7f364f0d4;
0x80481091d36417aa71d43035889debc2abeb3f668b064290;
0x5ccaddd7f44f1a7dc4332c0e6aa1d2824ef9328c9870b0;
0xa95e989976b0774da10f1b1fe5a64d5088872b6ae009ac56;
0x294b031e47dbbce06b96003c62cbb84a5e6a4c685412e6fa;
0x2b57f8d00ee966417bd79958623420d9cc672cce2752978a;
0xce9823d61aa33c2de0afda9df7b62519ac22b24301b97e28;
0x4ec0e47ff02fd5547a5267027beeef7edcc0a54266ce0334;
0x8255fecc0190cdb500b7423d891417e3053640a6375bb350;
0x83e1fdec064985f05a7401739dd82f08c4c7f220455cbdac;
0x4e9d3b31bc0d9af066b4294274f22e1e620e4336294a7334;
0x67c7fa8459e8d87d8729d9a8138ad743dbe9387f5035adf2;
0x3a8acb6e0d60147ed29287c14df7bc090746c1079df87b0;
0xe5cf9e1b6dada4004114a4019535110d20d79b53cc6044d2;
0xccd812c58474a9968d2ae653f9231958bc302be7f364b0d4;
0xcf70bf736524a8d160b51047edec7398282643a7a34c2aa4;
0x80481091d36417aa71d43035889debc2abeb3f668b06c290;
0xcf3df318689ee7ca4da06c97e692939009048c0ac4c01da4;
0x5ccaddd7f44f1a7dc4332c0e6aa1d2824ef9328c9970b0;
0x820870dbeb681120ce04099186d5093c9fad1c77216303e0;
0xa95e989976b0774da10f1b1fe5a64d5088872b6ae00bac56;
0x28fe40f5747f67b8f66ac434778d2eab74275be8f967973a;
0x294b031e47dbbce06b96003c62cbb84a5e6a4c685416e6fa;
0x2ae3ffb014590a45ce3d931276d06ddb9bbff273058b8406;
0x2b57f8d00ee966417bd79958623420d9cc672cce275a978a;
0xe7d2305ace5880e19fe4c7f1943afce62854e5c8ae956fd2;
0xce9823d61aa33c2de0afda9df7b62519ac22b24301a97e28;
0x1f95b5e9143dc8917de32b61fd5b402cd821afb882f543c;
0x4ec0e47ff02fd5547a5267027beeef7edcc0a54266ee0334;
0x20d2c6020bf6d4209327020053f731875018012ea521c00;
0x8255fecc0190cdb500b7423d891417e3053640a6371bb350;
0xa913d4f23f1f384fb07ead6deed80a5d0f1ae4dfe42c551a;
0x83e1fdec064985f05a7401739dd82f08c4c7f22045dcbdac;
0x4ed123841eeb9d21ed869f6e7e610dfd91464e5d6c240384;
0x4e9d3b31bc0d9af066b4294274f22e1e620e4336284a7334;
0x20c2cf670ca2472fb6882ca043abd36495648e19330d38c;
0x67c7fa8459e8d87d8729d9a8138ad743dbe9387f5235adf2;
0xaaba7d92d64654607d607e75fb3a6c5f8225280f84a3a3da;
0x3a8acb6e0d60147ed29287c14df7bc090746c107ddf87b0;
0xe7c2a77e86b180ccdb5e5fa39079cc895523ccf49c4c8a9e;
0xe5cf9e1b6dada4004114a4019535110d20d79b53c46044d2;
0xab1efdd2464b71556a214215ebdfafa94b5a0cce2249cfda;
0xccd812c58474a9968d2ae653f9231958bc302be7e364b0d4;
0x2af2281e7dd4bda6d74a7a56731086507eb312c79c95e976;
0xcf70bf736524a8d160b51047edec7398282643a7834c2aa4;
0x21daa40ee80246a979d9056012e5ee944ce7e561248f83c;
0x80481091d36417aa71d43035889debc2abeb3f66cb06c290;
0x3b83f93e54a01e1e4fe438810bdf8ad814e45e137bbb1c0;
0xcf3df318689ee7ca4da06c97e692939009048c0a44c01da4;
0xe66776b0f41a5b2b6775e0d5814d7f00a3a1f68db87d6ea2;
0x5ccaddd7f44f1a7dc4332c0e6aa1d2824ef9338c9970b0;
0x65cb872b9fa96f3a385cad0c176df8c8eec9ca86e1676c82;
0x820870dbeb681120ce04099186d5093c9fad1c75216303e0;
0xaaaaaaaaaaaaaaaaffffffffffffffff0000000000000056;
0xa95e989976b0774da10f1b1fe5a64d5088872b6ee00bac56;
0xa9035393b1aa55ad1ff5fed5ead0a447ad1172dc15d07fda;
0x28fe40f5747f67b8f66ac434778d2eab74275be0f967973a;
0xe7c3f7f074c17e1bf658a49d91b8f1f57164d6f3c0046f62;
0x294b031e47dbbce06b96003c62cbb84a5e6a4c785416e6fa;
0xe62a7ec680d4ea5c81287f4b8a948dc5918438ded136575e;
0x2ae3ffb014590a45ce3d931276d06ddb9bbff253058b8406;
0x4d680cd42ccc2a6670cc8cf26f963f76bf78c8d4eddb2834;
0x2b57f8d00ee966417bd79958623420d9cc672c8e275a978a;
0x8048418964b6a0483556140b88496493d3bae97d8b65276c;
0xe7d2305ace5880e19fe4c7f1943afce62854e548ae956fd2;
0x678af2b3383e4dc9ea87e5f4185a516ccbfc9a80a1c83642;
0xce9823d61aa33c2de0afda9df7b62519ac22b34301a97e28;
0x295b857bc8f9982791ff5f3666d102cf06fc05639c388576;
0x1f95b5e9143dc8917de32b61fd5b402cd8218fb882f543c;
0xe66723a90eadec022e9ab55d81b8475b378920bb02aadf62;
0x4ec0e47ff02fd5547a5267027beeef7edcc0a14266ee0334;
0x8219b330099dcb1121272e1f837ec2c5098143b872fdbd1c;
0x20d2c6020bf6d4209327020053f731875018812ea521c00;
0x4f64656a35a90ecec781ac026b14de94efdb85b5f5b50334;
0x8255fecc0190cdb500b7423d891417e3053650a6371bb350;
0xcf6560e9682a8d094d923ee9ea26210a0c16150bf0c78858;
0xa913d4f23f1f384fb07ead6deed80a5d0f1ac4dfe42c551a;
0x67d728bc68a722aa4db2c7e8177ffac40d511834eb91ddf2;
0x83e1fdec064985f05a7401739dd82f08c4c7b22045dcbdac;
0xab42660763385bf13ad9eec9e5653ed4e8e1577dc695946a;
0x4ed123841eeb9d21ed869f6e7e610dfd9146ce5d6c240384;
0xccdd0a2222da0f4b0b31158dfa67125f721dda92da97f928;
0x4e9d3b31bc0d9af066b4294274f22e1e620f4336284a7334;
0x67d6382ffbd626100d22297c163996543c640f5e7d588782;
0x20c2cf670ca2472fb6882ca043abd36495448e19330d38c;
0x81b14f9f0f5b7d3b7b73d4499764ed54cc04fdf32f694520;
0x67c7fa8459e8d87d8729d9a8138ad743dbed387f5235adf2;
0xab0e7eb2d18e1c2527a3aaddeff651b4439d9ab9ffa10e1a;
0xaaba7d92d64654607d607e75fb3a6c5f822d280f84a3a3da;
0x20c2cf670cb2472fb6882c8043abc36495548f19234c1c0;
0x3a8acb6e0d60147ed29287c14df7bc090646c107ddf87b0;
0xab43229c0a793ef177c79851e4c36ac9e5c6ea9a22cca2aa;
0xe7c2a77e86b180ccdb5e5fa39079cc895503ccf49c4c8a9e;
0x80598762def07a645cc2724b8dd2656d8bd9b217f801576c;
0xe5cf9e1b6dada4004114a4019535110d20979b53c46044d2;
0xa8b750b3e2671df1ef1343bffe1c7aa9933ec0d367b87056;
0xab1efdd2464b71556a214215ebdfafa94bda0cce2249cfda;
0x65cad6e47857b53f8f8d7c9c16b5b45bbb1eb82dc6d42b82;
0xccd812c58474a9968d2ae653f9231958bd302be7e364b0d4;
0xa912802cd457709c2b2feda1ef356fb36f482611c55589aa;
0x2af2281e7dd4bda6d74a7a56731086507cb312c79c95e976;
0xab0e3faee50de2c2b4ea2959ef60f37b470b9f9a6c4ad36a;
0xcf70bf736524a8d160b51047edec73982c2643a7834c2aa4;
0xcc941a25a1ca51d1889fd7d5f3ff36b3e5a12d1728977fe8;
0x21daa40ee80246a979d9056012e5ee94cce7e561248f83c;
0x646f4227221e02ed0a98e8fc0732c06262ac33bf9dfe4782;
0x80481091d36417aa71d43035889debc2bbeb3f66cb06c290;
0xe42703be12ac30fcc22af5f78f7f468cb70b6ea737dc60ee;
0x3b83f93e54a01e1e4fe438810bdf8ada14e45e137bbb1c0;
0x81b14e9f4ad87d224ae143cf97745f5156f3f99b32f68a1c;
0xcf3df318689ee7ca4da06c97e692939049048c0a44c01da4;
0x28ee8289c769f42b9ea01d2873323e7b29cac811bb657c8a;
0xe66776b0f41a5b2b6775e0d5814d7f0023a1f68db87d6ea2;
0x80051ce6fadaa656c8e441bb8365e90585faf16865f47c6c;
0x5ccaddd7f44f1a7dc4332c0e6aa1d3824ef9338c9970b0;
0x67d63c2eb7a6269911dc923a1618365686ae0fc5105ef8be;
0x65cb872b9fa96f3a385cad0c176df8caeec9ca86e1676c82;
0x663ef59223d305035ef2749e0cb7038788932816e61039ce;
0x820870dbeb681120ce04099186d509389fad1c75216303e0;
0x65878ecffe85de6554d9d98e1da370bbee5c136a5332bece;
0xaaaaaaaaaaaaaaaafffffffffffffff70000000000000056;
0xccd9520fe5583a94b4ebd687f8a84a56460b8f337c099aa4;
0xa95e989976b0774da10f1b1fe5a64d4088872b6ee00bac56;
0x663bfc6107eb6ad60e84de000fa53d2d2add8c091cac0032;
0xa9035393b1aa55ad1ff5fed5ead0a467ad1172dc15d07fda;
0x647ed1c177befdc8f4dd70d6025a84bb770d0a7cee69380e;
0x28fe40f5747f67b8f66ac434778d2eeb74275be0f967973a;
0x2af3398daa279905aa9a428a724649c5fae861953739b2c6;
0xe7c3f7f074c17e1bf658a49d91b8f1757164d6f3c0046f62;
0x679f6c2551b294bfa7a0097c1f026008c2c9cd4061588782;
0x294b031e47dbbce06b96003c62cbb94a5e6a4c785416e6fa;
0x4f39bb712c02bfc570f5177a6417ede8bb7b67f7cca099f4;
0xe62a7ec680d4ea5c81287f4b8a948fc5918438ded136575e;
0x3a9ad61a4346ca48432977e15c3d100c822cc3d0cf095fc;
0x2ae3ffb014590a45ce3d931276d069db9bbff253058b8406;
0x2b463e2be19b2e34eda7644867abd75a9105c3a16578108a;
0x4d680cd42ccc2a6670cc8cf26f963776bf78c8d4eddb2834;
0xce9823d61b223c2de0190f0ff7b63419a855b2132f6e2b64;
0x2b57f8d00ee966417bd79958623430d9cc672c8e275a978a;
0xaaabab7ded51c749c13fb6bffee3403fa095a05d444f7056;
0x8048418964b6a0483556140b88494493d3bae97d8b65276c;
0xced47a7fd093c506727155b7fdb34b32bc43ba9effd501a4;
0xe7d2305ace5880e19fe4c7f1943abce62854e548ae956fd2;
0x2ae2be3a50aabd90f263feea7743023a38173fb551d3dec6;
0x678af2b3383e4dc9ea87e5f4185ad16ccbfc9a80a1c83642;
0x3b92e44a7b16c02868c4bcc11e1476dca49edbc0222dcb0;
0xce9823d61aa33c2de0afda9df7b72519ac22b34301a97e28;
0xe7c6fe0150f911cfa62e0e0392aacf58d32a72ec3ab8569e;
0x295b857bc8f9982791ff5f3666d302cf06fc05639c388576;
0xe5de59b993657e76408170ed90b7b1243464c5c8ab3b8462;
0x1f95b5e9143dc8917de32b61fd1b402cd8218fb882f543c;
0xaaba79f69e6970186db75d4dfb10e3df154044b7ce7e491a;
0xe66723a90eadec022e9ab55d81b0475b378920bb02aadf62;
0x8251a66083337870d7c9c9958bdaff6d7cc2946a90321e90;
0x4ec0e47ff02fd5547a5267027bfeef7edcc0a14266ee0334;
0x65cb856adde84bf40a18cd9817647721628ca6ed9c0236f2;
0x8219b330099dcb1121272e1f835ec2c5098143b872fdbd1c;
0x824561e869adcd9a1961e44f8d57318ce35d69fcb43c4a1c;
0x20d2c6020bf6d4209327020057f731875018812ea521c00;
0x4e88d5ad2a84f4607eed884e736a7c1f9487c447e09d1f84;
0x4f64656a35a90ecec781ac026b94de94efdb85b5f5b50334;
0x1106d71b456dfee11329e8051c50c7b8d780c86c3dddc0;
0x8255fecc0190cdb500b7423d881417e3053650a6371bb350;
0xa8b502f61737712cccb8d0f5fed170c89d967ebd232e63da;
0xcf6560e9682a8d094d923ee9e826210a0c16150bf0c78858;
0x6476b41b5735b546fdec938402fe2b57030cd1d414ebdd42;
0xa913d4f23f1f384fb07ead6dead80a5d0f1ac4dfe42c551a;
0xaac4fc4e57b81ae5fdcc6a85f5a7f099024bdceb0fbd88da;
0x67d728bc68a722aa4db2c7e81f7ffac40d511834eb91ddf2;
0x6764613f78c4b460dbe9ad52133b692950718930a12ee57e;
0x83e1fdec064985f05a7401738dd82f08c4c7b22045dcbdac;
0x0;
0xab42660763385bf13ad9eec9c5653ed4e8e1577dc695946a;
0xcb42660763385bf13ad9eec9c5653ed4e8e1577dc6959458;
0x4ed123841eeb9d21ed869f6e3e610dfd9146ce5d6c240384;
0x4010d268751248cbf6f6850044f9823171067459c9f61178;
0xccdd0a2222da0f4b0b31158d7a67125f721dda92da97f928;
0x7672b86f7b9a43208d2b70d476dc1c21bd602b00ef6d2a42].
Definition cert256 : list N := [
0x100000000000000010000000100010134;
0xb0153274b482b249a25840dce5824d2995d77842415f2f5fd22845c65e759fea;
0xb0153274b482b249a25840dce5824d2995d77842415f2f5fd22845c65e759fe8;
0x4344b30249a4a500864978c2088230010852964d72f94b018548481481a148;
0xb0153274b482b249a25840dce5824d2995d77842415f2f5fd22845c65e759fec;
0x4131e43fc644affe5282475d9ebaee9270c9018642e76b6c6edca9cfda8921fa;
0x4344b30249a4a500864978c2088230010852964d72f94b018548481481a140;
0x6ca48861d5d47d43e377f6346bf2340fa95b6f7ebb695e343d9fbb481f31080;
0xb0153274b482b249a25840dce5824d2995d77842415f2f5fd22845c65e759ffc;
0x6890d345e35f7567e85a63aa2e676d2fb8c5629c7c4f9d981db97c6a69e6784;
0x4131e43fc644affe5282475d9ebaee9270c9018642e76b6c6edca9cfda8921da;
0x7ee9a9d3d983e34af696951fe90f61ccfa78866cc32602eaf9c354fe7d46710;
0x4344b30249a4a500864978c2088230010852964d72f94b018548481481a100;
0xb172a4cdd71a4e6b33a02cc21bd688e5a1e88045ca4f41d038ee66991c0fe4ec;
0x6ca48861d5d47d43e377f6346bf2340fa95b6f7ebb695e343d9fbb481f31000;
0x6890c351f14e3703eb1361a84b6a044fb9de460a6c56d9d425db2c894478350;
0xb0153274b482b249a25840dce5824d2995d77842415f2f5fd22845c65e759efc;
0x4166d28e24d94a84934e382718d8565c75b30bd4ac01c3f1290b6d1723d52f4e;
0x6890d345e35f7567e85a63aa2e676d2fb8c5629c7c4f9d981db97c6a69e6584;
0x4004025504932271065875f5c1d6f16042836952b32eb66b407a72cff46ed45e;
0x4131e43fc644affe5282475d9ebaee9270c9018642e76b6c6edca9cfda8925da;
0x46884903197441f07c33f203446ae442ba00a5fae0d554b74216d98ac73310da;
0x7ee9a9d3d983e34af696951fe90f61ccfa78866cc32602eaf9c354fe7d46f10;
0xb7ef9ba96ca8d8638e58c91e394681b95e92791f0c743ec0bd27568d10f8fbfc;
0x4344b30249a4a500864978c2088230010852964d72f94b018548481481b100;
0x46df7fa3bafd85ecbddfbe2d467bcb08bf7f3ba9efd59e3202c6b8bb0fb0091e;
0xb172a4cdd71a4e6b33a02cc21bd688e5a1e88045ca4f41d038ee66991c0fc4ec;
0x4163d1fe207faad1d406ebfc88de312a760042cb8debab181c5f7a80ed64cd9a;
0x6ca48861d5d47d43e377f6346bf2340fa95b6f7ebb695e343d9fbb481f35000;
0xb046429215c82180667b1d55942854039286ede42a23326d27548c0707514338;
0x6890c351f14e3703eb1361a84b6a044fb9de460a6c56d9d425db2c894470350;
0xf69d7a66ecc7d38ede5b03ea60f95bcf2fc269a440aa8893911ff977e9ff0976;
0xb0153274b482b249a25840dce5824d2995d77842415f2f5fd22845c65e749efc;
0x46df7fb2fbe9a48abdff8d79c2085d9cbf7aafa80e33fc3e05c11d543e6d3f4e;
0x4166d28e24d94a84934e382718d8565c75b30bd4ac01c3f1290b6d1723d72f4e;
0x40117062e44281cac61340c8552e188a47d534e3011f49473734cfc92c08199a;
0x6890d345e35f7567e85a63aa2e676d2fb8c5629c7c4f9d981db97c6a69a6584;
0xb172a4cdd71a4e6b33a02cc21bd789e5a1e88045ca4f40c038ee668d1c2ac4ec;
0x4004025504932271065875f5c1d6f16042836952b32eb66b407a72cff466d45e;
0x40157767a2e2d6a8c1db949b638d890e456a7dbc26183df3c1e80abc4d210aca;
0x4131e43fc644affe5282475d9ebaee9270c9018642e76b6c6edca9cfda9925da;
0xf05632c5b08b576ce14c4ce273a2ce5fd4774e025a5fc486e5fd86ca5f966c76;
0x46884903197441f07c33f203446ae442ba00a5fae0d554b74216d98ac71310da;
0xf134a70d96a44a6c37ddc3135c97ca01e3fa6a2e10f074b33f5c6bbb09d403e2;
0x7ee9a9d3d983e34af696951fe90f61ccfa78866cc32602eaf9c354fe7946f10;
0xf0147652b2d72589a0ce27b1876c483dd45e1f9087a8e52916e2ae530c10f8f2;
0xb7ef9ba96ca8d8638e58c91e394681b95e92791f0c743ec0bd27568d1078fbfc;
0x68d0a301894a100794c735cd5701002f9321e43e1f73f4f7633610434005084;
0x4344b30249a4a500864978c2088230010852964d72f94b018548481581b100;
0x177e2ae84dcca8d574b3e5e0c994f7232e65ca0ef922b815a5a3d324af6b184;
0x46df7fa3bafd85ecbddfbe2d467bcb08bf7f3ba9efd59e3202c6b8bb0db0091e;
0xb05632c4f18e521aa1685f9270806cd99476dd173bac75d6a04440068b0f3ffc;
0xb172a4cdd71a4e6b33a02cc21bd688e5a1e88045ca4f41d038ee6699180fc4ec;
0xb6de7bd7a9ef22b8dd7a9ff5d08dec5b6e72ed893baaf37f646d0e7bcb062f78;
0x4163d1fe207faad1d406ebfc88de312a760042cb8debab181c5f7a80e564cd9a;
0x5733e1a0aa8169c058d99d5123cd3a0546280f78787f3671f195fb0a60f8c4;
0x6ca48861d5d47d43e377f6346bf2340fa95b6f7ebb695e343d9fbb491f35000;
0xb177a6ac928d8e0974d84e3c4ec01d37a24e7d460a81fb420c9b14152e24a168;
0xb046429215c82180667b1d55942854039286ede42a23326d27548c0727514338;
0xf7a8c91b08606cb40913c1478e18f6011d7570ea013607bc46847d0ff3c403e2;
0x6890c351f14e3703eb1361a84b6a044fb9de460a6c56d9d425db2c8d4470350;
0xb04602c1519e147624687bd46312a3d192038907e9be2643a0a460d9c5ee26bc;
0xf69d7a66ecc7d38ede5b03ea60f95bcf2fc269a440aa8893911ff97769ff0976;
0xf05676c7b6cb16eca2de09a4278acf19d4df2ad40c2dd61453ad0d8e4af43fa2;
0xb0153274b482b249a25840dce5824d2995d77842415f2f5fd22845c75e749efc;
0xb0153375f5a3a66ee26cd0fdc3d39a8f95c6ca0a205fba2c11af61fc6d994928;
0x46df7fb2fbe9a48abdff8d79c2085d9cbf7aafa80e33fc3e05c11d563e6d3f4e;
0x40014426065597c10296676d62ff0170418967d3c6f7cf7fc4cbeba45173f15e;
0x4166d28e24d94a84934e382718d8565c75b30bd4ac01c3f1290b6d1323d72f4e;
0x6890d345e35f7567e85a63ba2e777c2fb8c5629c7c5f8cd81db96f3a6aa4084;
0x40117062e44281cac61340c8552e188a47d534e3011f49473734cfc12c08199a;
0x6983954fd33225fbb21b1f5c1d76ff8fcf1946df06eb2ab443f26e7dfbfb840;
0x6890d345e35f7567e85a63aa2e676d2fb8c5629c7c4f9d981db97d6a69a6584;
0x134a60d86855a2817c9563329d0c85433ea086622c1b7f4997b354e1d122650;
0xb172a4cdd71a4e6b33a02cc21bd789e5a1e88045ca4f40c038ee66ad1c2ac4ec;
0xf0153264f593860ba27c75ed43d109fdd5d3ef12a23fd67754be2470587ee8f2;
0x4004025504932271065875f5c1d6f16042836952b32eb66b407a728ff466d45e;
0xb7fba9f9892fb93d4d258ae8b931ff375a64d66c0d8fb919b935f17bbab0a168;
0x40157767a2e2d6a8c1db949b638d890e456a7dbc26183df3c1e80a3c4d210aca;
0x103544e232175ac495a5c532b2798e064c732dc72f9665f5d9e582fc295a94;
0x4131e43fc644affe5282475d9ebaee9270c9018642e76b6c6edca8cfda9925da;
0x40567386e4fc47ce834fba4307ab0f8c44e64aeda9c500b146ac9da05fec1a4e;
0xf05632c5b08b576ce14c4ce273a2ce5fd4774e025a5fc486e5fd84ca5f966c76;
0xb173a1b9d429f97b7311987ef967bde3a0f5342d2c0bff9af86286a8ef7fc738;
0x46884903197441f07c33f203446ae442ba00a5fae0d554b74216dd8ac71310da;
0x7fbe9abdd6c9ceb6f33df0d2e1e8cb2cae0f5ee7fd51e74dfd57fdc4e0ca184;
0xf134a70d96a44a6c37ddc3135c97ca01e3fa6a2e10f074b33f5c63bb09d403e2;
0xf7ef9bb96cb9fd76ce5ca92bbe33f6cf1e967e188ce4cca9ff94f4aaf2ca0976;
0x7ee9a9d3d983e34af696951fe90f61ccfa78866cc32602eaf9c254fe7946f10;
0xb6ca0d954a2836775d919941e393b2f36a2824796e27013fd4ac20e9b4cbe238;
0xf0147652b2d72589a0ce27b1876c483dd45e1f9087a8e52916e28e530c10f8f2;
0x405325e4c63bc25b07d5bcfe458738e447ab7738b25abec7433d16a1e90fc70e;
0xb7ef9ba96ca8d8638e58c91e394681b95e92791f0c743ec0bd27168d1078fbfc;
0x7b9a96c9d379b5c6f31a3ad29f23b52cae5a178b4b8da35dc7af595a8a62584;
0x68d0a301894a100794c735cd5701002f9321e43e1f73f4f7633e10434005084;
0x404344b2434db1d200a25b38a13b34d44109c0c2acb4fd588425aca1e70a760e;
0x4344b30249a4a500864978c2088230010852964d72f94b018448481581b100;
0xf6db38e4e90bd60f98200cfb22850bad2d40c4535a4bb8f094cc43255dbd9df2;
0x177e2ae84dcca8d574b3e5e0c994f7232e65ca0ef922b815a583d324af6b184;
0xb6884912097470905c37e707f00921136a05e7b3d2a142aee111087484316638;
0x46df7fa3bafd85ecbddfbe2d467bcb08bf7f3ba9efd59e3202c2b8bb0db0091e;
0xb004475712e272a425df8182e08cd705923b6bd95478419b900d5e4e73e540ec;
0xb05632c4f18e521aa1685f9270806cd99476dd173bac75d6a04c40068b0f3ffc;
0xb05375a7b26996a9e597d87c7289d83b9768637f2c46af03e4dc4d3b6814eb78;
0xb172a4cdd71a4e6b33a02cc21bd688e5a1e88045ca4f41d038fe6699180fc4ec;
0x40147313a1f160e8817aa163844bd8184467eac8c02695ed07534daf38142c1e;
0xb6de7bd7a9ef22b8dd7a9ff5d08dec5b6e72ed893baaf37f644d0e7bcb062f78;
0xf0102004905106582553653517966941d6362db38764b77523ac3382d82753e2;
0x4163d1fe207faad1d406ebfc88de312a760042cb8debab181c1f7a80e564cd9a;
0x46cf0fe45eafc7533adcdaba02f731b4b98a0f1a78ccacc444caf2a4f13db20e;
0x5733e1a0aa8169c058d99d5123cd3a0546280f78787f36717195fb0a60f8c4;
0xb005072157a0902726e8d11d7054c7e5939e1d0a24247a36e053724f17aec4ec;
0x6ca48861d5d47d43e377f6346bf2340fa95b6f7ebb695e342d9fbb491f35000;
0xf6cf0ee04e8e85571ad84fd8126232f529986d164eff6d5560d784d5f5cff1b2;
0xb177a6ac928d8e0974d84e3c4ec01d37a24e7d460a81fb420e9b14152e24a168;
0x69829159c70263c7b53f500c7c1fa12fcba35abf764140f03fb457aadc17584;
0xb046429215c82180667b1d55942854039286ede42a23326d23548c0727514338;
0xb0147742b2e605c8e1df8395522b1c1f944a3ba914fd762271c199f56a412c28;
0xf7a8c91b08606cb40913c1478e18f6011d7570ea013607bc4e847d0ff3c403e2;
0x416786b8068ced54539d4a4edb366742747c7e760d824bce69e0a79293a210da;
0x6890c351f14e3703eb1361a84b6a044fb9de460a6c56d9d525db2c8d4470350;
0xb00154223654c084a687761b1448564991c916a2b38039f06207091336c75afc;
0xb04602c1519e147624687bd46312a3d192038907e9be264380a460d9c5ee26bc;
0x4e884812584561c77c034336857b16e7a21511e601f5a7cd0337bcb0378b978a;
0xf69d7a66ecc7d38ede5b03ea60f95bcf2fc269a440aa8893d11ff97769ff0976;
0x5737b1a3bdf06891f9ee6ff1078918056ab92eced3cebfb56552e948303c40;
0xf05676c7b6cb16eca2de09a4278acf19d4df2ad40c2dd614d3ad0d8e4af43fa2;
0x46de3ed5ee8e772bdedd4a92a2f1d9febeca3b320dd871d9d09ab13e7d7fabca;
0xb0153274b482b249a25840dce5824d2995d77842415f2f5ed22845c75e749efc;
0x6890c351f14e3713eb1361b84b7a172fb9de461a6c46ca8425cb3fc9572b184;
0xb0153375f5a3a66ee26cd0fdc3d39a8f95c6ca0a205fba2e11af61fc6d994928;
0x7adde2e3fd19a91afef20293c987424ceafdaf081409965ae197d07f355c750;
0x46df7fb2fbe9a48abdff8d79c2085d9cbf7aafa80e33fc3a05c11d563e6d3f4e;
0x6ca48861d5d47d53e377f6246be2254fa95b6f6ebb794d643d8fa8080c62650;
0x40014426065597c10296676d62ff0170418967d3c6f7cf77c4cbeba45173f15e;
0xf6983c14af0573499ab10332a0e31db92cc9f57154b5f59cd00e84f53f69eba2;
0x4166d28e24d94a84934e382718d8565c75b30bd4ac01c3e1290b6d1323d72f4e;
0xf69d3a24e984c71f9c68571a43a538b92f42984762e1399611f99330ed1ceba2;
0x6890d345e35f7567e85a63ba2e777c2fb8c5629c7c5f8ed81db96f3a6aa4084;
0xf6db3da4ab2c8209d9b18b0951c4002f2d78e0794df41d22606e424140458d76;
0x40117062e44281cac61340c8552e188a47d534e3011f49073734cfc12c08199a;
0x47ac9b1978b52d67ad49f6719f76a6b88f33093fa697a5796bf3f39cd299f81e;
0x6983954fd33225fbb21b1f5c1d76ff8fcf1946df06eb22b443f26e7dfbfb840;
0xb7bcaa1c89907f0d08787153aaa09b755956a947a46260e9c99d91083ca2a1ec;
0x6890d345e35f7567e85a63aa2e676d2fb8c5629c7c4f8d981db97d6a69a6584;
0x143240e596554e837963d727215f9c04f2a82781ef67f5c6a4c5222ff82f10;
0x134a60d86855a2817c9563329d0c85433ea086622c1b5f4997b354e1d122650;
0xf04205d4563a63466381b8c3c1fb57c3d0b8506cac4b50ff107ff8f332aa4366;
0xb172a4cdd71a4e6b33a02cc21bd789e5a1e88045ca4f44c038ee66ad1c2ac4ec;
0xf6997d63eb6290af99b6c4cc747c8ab92d7db39a075f4a06a357eb580c88eba2;
0xf0153264f593860ba27c75ed43d109fdd5d3ef12a23fde7754be2470587ee8f2;
0x130a558823269081181a097cdf14c1031794069911c27be5f3fa5771f052500;
0x4004025504932271065875f5c1d6f16042836952b32ea66b407a728ff466d45e;
0xf173e4bad259a99e70967d688a382e93e04c7783fb27cd490984f911cb983666;
0xb7fba9f9892fb93d4d258ae8b931ff375a64d66c0d8f9919b935f17bbab0a168;
0x14621781c033f8417a1504adfba9420437fc9426341618cb2ab9fcd9270084;
0x40157767a2e2d6a8c1db949b638d890e456a7dbc26187df3c1e80a3c4d210aca;
0x7ffeaee98ce9e98695a1acc0fcc6d02c87728842cca4a151faf5e529a355084;
0x103544e232175ac495a5c532b2798e064c732dc72f1665f5d9e582fc295a94;
0x1000025015000108261c56261440010201c00c6916a0627c0c2c0620350;
0x4131e43fc644affe5282475d9ebaee9270c9018642e66b6c6edca8cfda9925da;
0x4125963d2690ee2093c8715cdad1955874bb5943e1723b0f288f242d36637c1e;
0x40567386e4fc47ce834fba4307ab0f8c44e64aeda9c700b146ac9da05fec1a4e;
0xf7bcab0d89a05f694868d44a2aa3893719438c5e26030d858c8dd4a80875b136;
0xf05632c5b08b576ce14c4ce273a2ce5fd4774e025a5bc486e5fd84ca5f966c76;
0xb7eedadf28cf3ab08d5e0ed1acd9e5495f273fc05e9b3479cf5b2c2ad3765afc;
0xb173a1b9d429f97b7311987ef967bde3a0f5342d2c03ff9af86286a8ef7fc738;
0xb7b9a87c8d17be194f212269fac02c635af1c07184c6c92bf8ca01149f538738;
0x46884903197441f07c33f203446ae442ba00a5fae0c554b74216dd8ac71310da;
0xf6de7bd6a9ee3389dd7bdcd4b0bd5d6b2e73ecff3a1a6258e558bb677a378e26;
0x7fbe9abdd6c9ceb6f33df0d2e1e8cb2cae0f5ee7ff51e74dfd57fdc4e0ca184;
0xb6ca5cc76f4e12a69fe757c4258886c96afec7e623ea5311d279181d12ce1afc;
0xf134a70d96a44a6c37ddc3135c97ca01e3fa6a2e10b074b33f5c63bb09d403e2;
0x4167d6ea27cfc9d493eb2bba596a365874ba9de4c8bdb8832d228cc4f6d27c1e;
0xf7ef9bb96cb9fd76ce5ca92bbe33f6cf1e967e188c64cca9ff94f4aaf2ca0976;
0x134a35cc4b33b5e165d71e1fca73bc433d72b23b46bc57aae58c7a1bdbf4350;
0x7ee9a9d3d983e34af696951fe90f61ccfa78866cd32602eaf9c254fe7946f10;
0xb6983954ac377319db07b3f3b0b56d6b6cf146bda1eab1a8a059b232ca369e78;
0xb6ca0d954a2836775d919941e393b2f36a2824796c27013fd4ac20e9b4cbe238;
0xf7fefe8bab985dfd89a469063a7fae3d193dc6169d311690f9c7eea9dad4f8f2;
0xf0147652b2d72589a0ce27b1876c483dd45e1f9083a8e52916e28e530c10f8f2;
0xf7feef9acbf839ce49cfb841bc2f4e97196a5facb846103cbb558ab31e9d6536;
0x405325e4c63bc25b07d5bcfe458738e447ab7738ba5abec7433d16a1e90fc70e;
0x68c5e473e9303f1bb0d65e454ebb42cf8f44f33c26f9347620e99fde215de10;
0xb7ef9ba96ca8d8638e58c91e394681b95e92791f1c743ec0bd27168d1078fbfc;
0xb6cb18e06d0e91539d651acd612775b96b7687706d8a0a729530c6f7f328fbfc;
0x7b9a96c9d379b5c6f31a3ad29f23b52cae5a17894b8da35dc7af595a8a62584;
0xfbcbf48fbb35c4ae1f9f4b76a570d8bd12afd2ee759e2b2cdc636b04e7c09c4;
0x68d0a301894a100794c735cd5701002f9321e43a1f73f4f7633e10434005084;
0x46da39c0a83e1459b911bfd563127c7cbc717439aaff233384e035c6ef03bb4e;
0x404344b2434db1d200a25b38a13b34d44109c0c22cb4fd588425aca1e70a760e;
0x6884813194174b0bc275176e648a048fa1483b26033a3ce8697585dc4024940;
0x4344b30249a4a500864978c2088230010852974d72f94b018448481581b100;
0x404300b1450df06503311e7ef416c22041a0a4307bc6fa8ff354379e4095845e;
0xf6db38e4e90bd60f98200cfb22850bad2d40c4515a4bb8f094cc43255dbd9df2;
0xf135a638d795a81236ec7279890521d1e2ceda57e0c6e96d0c755320947b36e2;
0x177e2ae84dcca8d574b3e5e0c994f7232e65ca4ef922b815a583d324af6b184;
0x40567387e4fd47da834ebb6246be7dd844e74bc8a8f795c3479cae97aa2a3c1e;
0xb6884912097470905c37e707f00921136a05e7bbd2a142aee111087484316638;
0xb05733e1f1af94bea07ddaf9631cbf899546fb7a28cfbc6695e13b4dbfe94afc;
0x46df7fa3bafd85ecbddfbe2d467bcb08bf7f3bb9efd59e3202c2b8bb0db0091e;
0xf163d0ff714fa9e3f4334efd9c7b84afe611b5f65f8aab793f42fca8531ccd76;
0xb004475712e272a425df8182e08cd705923b6bf95478419b900d5e4e73e540ec;
0xf134b619b684307cb7dc5241b146bf4de3ae7b5275c30568b13247ccafa619f2;
0xb05632c4f18e521aa1685f9270806cd99476dd573bac75d6a04c40068b0f3ffc;
0x7b8ed5b9b6319a96da2d0f06c7cd922cb69c5ce710ab1069b07bf4f6865c484;
0xb05375a7b26996a9e597d87c7289d83b976863ff2c46af03e4dc4d3b6814eb78;
0xf0153375b4a2263da24cc4d1c2c1fa69d5c65b0f430f243b559e446fe9d6dea2;
0xb172a4cdd71a4e6b33a02cc21bd688e5a1e88145ca4f41d038fe6699180fc4ec;
0xf68d4e324fc6e4d71aff17dbd25e27b1299aaeb067ea79af64c77bc596fdf2e2;
0x40147313a1f160e8817aa163844bd8184467e8c8c02695ed07534daf38142c1e;
0x46df2ee09f8394193fac54e866152974bfacde57221e9812c7916670dd36a20e;
0xb6de7bd7a9ef22b8dd7a9ff5d08dec5b6e72e9893baaf37f644d0e7bcb062f78;
0x7ef9ba83d8cc850ee7d4a4e0942354ace93ab7358864a9458335595f67719c4;
0xf0102004905106582553653517966941d63625b38764b77523ac3382d82753e2;
0xb0106406969146dc66c96062439a2f57969e4977c01384d714e829c1dff26568;
0x4163d1fe207faad1d406ebfc88de312a760052cb8debab181c1f7a80e564cd9a;
0x46df2fb0dcf8b10f3f1ea848e5645ee0bfb06a998c17481ed673d6436ece945e;
0x46cf0fe45eafc7533adcdaba02f731b4b98a2f1a78ccacc444caf2a4f13db20e;
0xf84345b65b69e2d768f2c82fd49e36e6c91ba19e0c059bfe32587ed4a28a8436;
0x5733e1a0aa8169c058d99d5123cd3a0546680f78787f36717195fb0a60f8c4;
0x6cb09e1383e8461fd11bfd91653c46afb25602dbaee6d35768671fe12528dc4;
0xb005072157a0902726e8d11d7054c7e5939e9d0a24247a36e053724f17aec4ec;
0xf7ead99aac6c38898b17de14ac4d5c3d1db073bb6ed5734c8b160f726b40f8f2;
0x6ca48861d5d47d43e377f6346bf2340fa94b6f7ebb695e342d9fbb491f35000;
0xf7addb6d6df6da26ce7eb7ce3d80978f1e96bed8a6ba5ac1fb39055c23ad5976;
0xf6cf0ee04e8e85571ad84fd8126232f5299a6d164eff6d5560d784d5f5cff1b2;
0xb011246dd2178b6b659427a91ce2ddb3973c261582f898246a1f919a3e28b238;
0xb177a6ac928d8e0974d84e3c4ec01d37a24a7d460a81fb420e9b14152e24a168;
0x46993d11fe21243bfb8185348240adeebdf904281771e3090192545cda3a8eca;
0x69829159c70263c7b53f500c7c1fa12fcb235abf764140f03fb457aadc17584;
0x69d2ef4da8fe60a3d9d4baa87944880ff2c6e2649fcddd907ac375248494000;
0xb046429215c82180667b1d55942854039296ede42a23326d23548c0727514338;
0x468d5d233e2585e5fa918769467fd62eb9cd203943e79d730687ffee26809eca;
0xb0147742b2e605c8e1df8395522b1c1f946a3ba914fd762271c199f56a412c28;
0x4ffaf4caf61a098aa79039850d694dcd93b96011ed3c12704f32cc620e3a4a4e;
0xf7a8c91b08606cb40913c1478e18f6011d3570ea013607bc4e847d0ff3c403e2;
0x56333c0e4f0ba054b930fb159bd84033649e864e05bfcb0367c38be391350;
0x416786b8068ced54539d4a4edb36674274fc7e760d824bce69e0a79293a210da;
0xb698a9588d227d181b309482be216d156ca0e00c6749459cebc194669f2465ec;
0x6890c351f14e3703eb1361a84b6a044fa9de460a6c56d9d525db2c8d4470350;
0xb68f4fa30eec81e05a8e8b09552e914369c90e9c0cb44c722764da9d60661338;
0xb00154223654c084a687761b1448564993c916a2b38039f06207091336c75afc;
0xffa5937860b6ed468409e7cada36439807005c3e96be598f3dc0b7d750ed7fa2;
0xb04602c1519e147624687bd46312a3d196038907e9be264380a460d9c5ee26bc;
0x414215c0663a0012d794ad84010024da73fc22489b3c124154201045c34f6c9a;
0x4e884812584561c77c034336857b16e7aa1511e601f5a7cd0337bcb0378b978a;
0x4e56639395e930ec377e9874e54fdf51b6a3af8c7d53f74fd7625bfa7ef7655e;
0xf69d7a66ecc7d38ede5b03ea60f95bcf3fc269a440aa8893d11ff97769ff0976;
0xbc4743b744e8f2f2174f9c1fb59fe5d027b61afd2b403ee8e66c3fbec72a26bc;
0x5737b1a3bdf06891f9ee6ff1078918256ab92eced3cebfb56552e948303c40;
0x0;
0xf05676c7b6cb16eca2de09a4278acf1994df2ad40c2dd614d3ad0d8e4af43fa2;
0x10153725e6a5d67bd3cdd23a32c3bcbe75ea1e3f2490fc90f58b15ecfe49bb10;
0x46de3ed5ee8e772bdedd4a92a2f1d9fe3eca3b320dd871d9d09ab13e7d7fabca;
0x70014526067096910286e50c279d6034519947cfc6315e1582ec2b779114f1da].
