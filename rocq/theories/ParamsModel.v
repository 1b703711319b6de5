(** The constants assigned to the prime-field types by the init_*_fields()
    functions (64-bit limb branch), transcribed from
    libff/algebra/curves/*/*_fields.cpp. *)
From Coq Require Import ZArith List.
From Verif Require Import Limbs FpModel.
Import ListNotations.
Open Scope Z_scope.

(** fp.hpp:53-64 static members besides those used by the arithmetic;
    field-element members are given by the integer in their decimal string. *)
Record field_consts : Type := mkFC {
  fc_P : fp_params;
  fc_euler : Z;       (* (modulus-1)/2 *)
  fc_s : Z;           (* modulus = 2^s * t + 1 *)
  fc_t : Z;
  fc_tm1 : Z;         (* t_minus_1_over_2 *)
  fc_gen : Z;         (* multiplicative_generator *)
  fc_rou : Z;         (* root_of_unity *)
  fc_nqr : Z;
  fc_nqr_to_t : Z
}.
Definition fc_p (C : field_consts) : Z := val (fp_modulus (fc_P C)).

(** curves/alt_bn128/alt_bn128_fields.cpp:24-46 *)
Definition alt_bn128_Fr_P : fp_params :=
  {| fp_n := 4;
     fp_modulus := limbs_of 4 21888242871839275222246405745257275088548364400416034343698204186575808495617;
     fp_inv := 0xc2e1f593efffffff;
     fp_Rsquared := limbs_of 4 944936681149208446651664254269745548490766851729442924617792859073125903783;
     fp_Rcubed := limbs_of 4 5866548545943845227489894872040244720403868105578784105281690076696998248512;
     fp_num_bits := 254 |}.
Definition alt_bn128_Fr_C : field_consts :=
  {| fc_P := alt_bn128_Fr_P;
     fc_euler := 10944121435919637611123202872628637544274182200208017171849102093287904247808;
     fc_s := 28;
     fc_t := 81540058820840996586704275553141814055101440848469862132140264610111;
     fc_tm1 := 40770029410420498293352137776570907027550720424234931066070132305055;
     fc_gen := 5;
     fc_rou := 19103219067921713944291392827692070036145651957329286315305642004821462161904;
     fc_nqr := 5;
     fc_nqr_to_t := 19103219067921713944291392827692070036145651957329286315305642004821462161904 |}.

(** curves/alt_bn128/alt_bn128_fields.cpp:50-72 *)
Definition alt_bn128_Fq_P : fp_params :=
  {| fp_n := 4;
     fp_modulus := limbs_of 4 21888242871839275222246405745257275088696311157297823662689037894645226208583;
     fp_inv := 0x87d20782e4866389;
     fp_Rsquared := limbs_of 4 3096616502983703923843567936837374451735540968419076528771170197431451843209;
     fp_Rcubed := limbs_of 4 14921786541159648185948152738563080959093619838510245177710943249661917737183;
     fp_num_bits := 254 |}.
Definition alt_bn128_Fq_C : field_consts :=
  {| fc_P := alt_bn128_Fq_P;
     fc_euler := 10944121435919637611123202872628637544348155578648911831344518947322613104291;
     fc_s := 1;
     fc_t := 10944121435919637611123202872628637544348155578648911831344518947322613104291;
     fc_tm1 := 5472060717959818805561601436314318772174077789324455915672259473661306552145;
     fc_gen := 3;
     fc_rou := 21888242871839275222246405745257275088696311157297823662689037894645226208582;
     fc_nqr := 3;
     fc_nqr_to_t := 21888242871839275222246405745257275088696311157297823662689037894645226208582 |}.

(** curves/bn128/bn128_fields.cpp:25-47 *)
Definition bn128_Fr_P : fp_params :=
  {| fp_n := 4;
     fp_modulus := limbs_of 4 21888242871839275222246405745257275088548364400416034343698204186575808495617;
     fp_inv := 0xc2e1f593efffffff;
     fp_Rsquared := limbs_of 4 944936681149208446651664254269745548490766851729442924617792859073125903783;
     fp_Rcubed := limbs_of 4 5866548545943845227489894872040244720403868105578784105281690076696998248512;
     fp_num_bits := 254 |}.
Definition bn128_Fr_C : field_consts :=
  {| fc_P := bn128_Fr_P;
     fc_euler := 10944121435919637611123202872628637544274182200208017171849102093287904247808;
     fc_s := 28;
     fc_t := 81540058820840996586704275553141814055101440848469862132140264610111;
     fc_tm1 := 40770029410420498293352137776570907027550720424234931066070132305055;
     fc_gen := 5;
     fc_rou := 19103219067921713944291392827692070036145651957329286315305642004821462161904;
     fc_nqr := 5;
     fc_nqr_to_t := 19103219067921713944291392827692070036145651957329286315305642004821462161904 |}.

(** curves/bn128/bn128_fields.cpp:50-72 *)
Definition bn128_Fq_P : fp_params :=
  {| fp_n := 4;
     fp_modulus := limbs_of 4 21888242871839275222246405745257275088696311157297823662689037894645226208583;
     fp_inv := 0x87d20782e4866389;
     fp_Rsquared := limbs_of 4 3096616502983703923843567936837374451735540968419076528771170197431451843209;
     fp_Rcubed := limbs_of 4 14921786541159648185948152738563080959093619838510245177710943249661917737183;
     fp_num_bits := 254 |}.
Definition bn128_Fq_C : field_consts :=
  {| fc_P := bn128_Fq_P;
     fc_euler := 10944121435919637611123202872628637544348155578648911831344518947322613104291;
     fc_s := 1;
     fc_t := 10944121435919637611123202872628637544348155578648911831344518947322613104291;
     fc_tm1 := 5472060717959818805561601436314318772174077789324455915672259473661306552145;
     fc_gen := 3;
     fc_rou := 21888242871839275222246405745257275088696311157297823662689037894645226208582;
     fc_nqr := 3;
     fc_nqr_to_t := 21888242871839275222246405745257275088696311157297823662689037894645226208582 |}.

(** curves/bls12_381/bls12_381_fields.cpp:24-46 *)
Definition bls12_381_Fr_P : fp_params :=
  {| fp_n := 4;
     fp_modulus := limbs_of 4 52435875175126190479447740508185965837690552500527637822603658699938581184513;
     fp_inv := 0xfffffffeffffffff;
     fp_Rsquared := limbs_of 4 3294906474794265442129797520630710739278575682199800681788903916070560242797;
     fp_Rcubed := limbs_of 4 49829253988540319354550742249276084460127446355315915089527227471280320770991;
     fp_num_bits := 255 |}.
Definition bls12_381_Fr_C : field_consts :=
  {| fc_P := bls12_381_Fr_P;
     fc_euler := 26217937587563095239723870254092982918845276250263818911301829349969290592256;
     fc_s := 32;
     fc_t := 12208678567578594777604504606729831043093128246378069236549469339647;
     fc_tm1 := 6104339283789297388802252303364915521546564123189034618274734669823;
     fc_gen := 7;
     fc_rou := 10238227357739495823651030575849232062558860180284477541189508159991286009131;
     fc_nqr := 5;
     fc_nqr_to_t := 937917089079007706106976984802249742464848817460758522850752807661925904159 |}.

(** curves/bls12_381/bls12_381_fields.cpp:49-72 *)
Definition bls12_381_Fq_P : fp_params :=
  {| fp_n := 6;
     fp_modulus := limbs_of 6 4002409555221667393417789825735904156556882819939007885332058136124031650490837864442687629129015664037894272559787;
     fp_inv := 0x89f3fffcfffcfffd;
     fp_Rsquared := limbs_of 6 2708263910654730174793787626328176511836455197166317677006154293982164122222515399004018013397331347120527951271750;
     fp_Rcubed := limbs_of 6 1639067542774625894236716575548084905938753837211594095883637014582201460755008380976950835174037649440777609978336;
     fp_num_bits := 381 |}.
Definition bls12_381_Fq_C : field_consts :=
  {| fc_P := bls12_381_Fq_P;
     fc_euler := 2001204777610833696708894912867952078278441409969503942666029068062015825245418932221343814564507832018947136279893;
     fc_s := 1;
     fc_t := 2001204777610833696708894912867952078278441409969503942666029068062015825245418932221343814564507832018947136279893;
     fc_tm1 := 1000602388805416848354447456433976039139220704984751971333014534031007912622709466110671907282253916009473568139946;
     fc_gen := 2;
     fc_rou := 4002409555221667393417789825735904156556882819939007885332058136124031650490837864442687629129015664037894272559786;
     fc_nqr := 2;
     fc_nqr_to_t := 4002409555221667393417789825735904156556882819939007885332058136124031650490837864442687629129015664037894272559786 |}.

(** curves/edwards/edwards_fields.cpp:24-46 *)
Definition edwards_Fr_P : fp_params :=
  {| fp_n := 3;
     fp_modulus := limbs_of 3 1552511030102430251236801561344621993261920897571225601;
     fp_inv := 0xdde553277fffffff;
     fp_Rsquared := limbs_of 3 621738487827897760168419760282818735947979812540885779;
     fp_Rcubed := limbs_of 3 899968968216802386013510389846941393831065658679774050;
     fp_num_bits := 181 |}.
Definition edwards_Fr_C : field_consts :=
  {| fc_P := edwards_Fr_P;
     fc_euler := 776255515051215125618400780672310996630960448785612800;
     fc_s := 31;
     fc_t := 722944284836962004768104088187507350585386575;
     fc_tm1 := 361472142418481002384052044093753675292693287;
     fc_gen := 19;
     fc_rou := 695314865466598274460565335217615316274564719601897184;
     fc_nqr := 11;
     fc_nqr_to_t := 1326707053668679463752768729767248251415639579872144553 |}.

(** curves/edwards/edwards_fields.cpp:50-72 *)
Definition edwards_Fq_P : fp_params :=
  {| fp_n := 3;
     fp_modulus := limbs_of 3 6210044120409721004947206240885978274523751269793792001;
     fp_inv := 0x76eb690b7fffffff;
     fp_Rsquared := limbs_of 3 5943559676554581037560514598978484097352477055348195432;
     fp_Rcubed := limbs_of 3 1081560488703514202058739223469726982199727506489234349;
     fp_num_bits := 183 |}.
Definition edwards_Fq_C : field_consts :=
  {| fc_P := edwards_Fq_P;
     fc_euler := 3105022060204860502473603120442989137261875634896896000;
     fc_s := 31;
     fc_t := 2891777139347848019072416350658041552884388375;
     fc_tm1 := 1445888569673924009536208175329020776442194187;
     fc_gen := 61;
     fc_rou := 4692813029219384139894873043933463717810008194158530536;
     fc_nqr := 23;
     fc_nqr_to_t := 2626736066325740702418554487368721595489070118548299138 |}.

(** curves/mnt/mnt4/mnt4_fields.cpp:27-49 *)
Definition mnt4_Fr_P : fp_params :=
  {| fp_n := 5;
     fp_modulus := limbs_of 5 475922286169261325753349249653048451545124878552823515553267735739164647307408490559963137;
     fp_inv := 0xbb4334a3ffffffff;
     fp_Rsquared := limbs_of 5 163983144722506446826715124368972380525894397127205577781234305496325861831001705438796139;
     fp_Rcubed := limbs_of 5 207236281459091063710247635236340312578688659363066707916716212805695955118593239854980171;
     fp_num_bits := 298 |}.
Definition mnt4_Fr_C : field_consts :=
  {| fc_P := mnt4_Fr_P;
     fc_euler := 237961143084630662876674624826524225772562439276411757776633867869582323653704245279981568;
     fc_s := 34;
     fc_t := 27702323054502562488973446286577291993024111641153199339359284829066871159442729;
     fc_tm1 := 13851161527251281244486723143288645996512055820576599669679642414533435579721364;
     fc_gen := 10;
     fc_rou := 120638817826913173458768829485690099845377008030891618010109772937363554409782252579816313;
     fc_nqr := 5;
     fc_nqr_to_t := 406220604243090401056429458730298145937262552508985450684842547562990900634752279902740880 |}.

(** curves/mnt/mnt4/mnt4_fields.cpp:53-75 *)
Definition mnt4_Fq_P : fp_params :=
  {| fp_n := 5;
     fp_modulus := limbs_of 5 475922286169261325753349249653048451545124879242694725395555128576210262817955800483758081;
     fp_inv := 0xb071a1b67165ffff;
     fp_Rsquared := limbs_of 5 273000478523237720910981655601160860640083126627235719712980612296263966512828033847775776;
     fp_Rcubed := limbs_of 5 427298980065529822574935274648041073124704261331681436071990730954930769758106792920349077;
     fp_num_bits := 298 |}.
Definition mnt4_Fq_C : field_consts :=
  {| fc_P := mnt4_Fq_P;
     fc_euler := 237961143084630662876674624826524225772562439621347362697777564288105131408977900241879040;
     fc_s := 17;
     fc_t := 3630998887399759870554727551674258816109656366292531779446068791017229177993437198515;
     fc_tm1 := 1815499443699879935277363775837129408054828183146265889723034395508614588996718599257;
     fc_gen := 17;
     fc_rou := 264706250571800080758069302369654305530125675521263976034054878017580902343339784464690243;
     fc_nqr := 17;
     fc_nqr_to_t := 264706250571800080758069302369654305530125675521263976034054878017580902343339784464690243 |}.

(** curves/mnt/mnt6/mnt6_fields.cpp:27-49 *)
Definition mnt6_Fr_P : fp_params :=
  {| fp_n := 5;
     fp_modulus := limbs_of 5 475922286169261325753349249653048451545124879242694725395555128576210262817955800483758081;
     fp_inv := 0xb071a1b67165ffff;
     fp_Rsquared := limbs_of 5 273000478523237720910981655601160860640083126627235719712980612296263966512828033847775776;
     fp_Rcubed := limbs_of 5 427298980065529822574935274648041073124704261331681436071990730954930769758106792920349077;
     fp_num_bits := 298 |}.
Definition mnt6_Fr_C : field_consts :=
  {| fc_P := mnt6_Fr_P;
     fc_euler := 237961143084630662876674624826524225772562439621347362697777564288105131408977900241879040;
     fc_s := 17;
     fc_t := 3630998887399759870554727551674258816109656366292531779446068791017229177993437198515;
     fc_tm1 := 1815499443699879935277363775837129408054828183146265889723034395508614588996718599257;
     fc_gen := 17;
     fc_rou := 264706250571800080758069302369654305530125675521263976034054878017580902343339784464690243;
     fc_nqr := 17;
     fc_nqr_to_t := 264706250571800080758069302369654305530125675521263976034054878017580902343339784464690243 |}.

(** curves/mnt/mnt6/mnt6_fields.cpp:53-75 *)
Definition mnt6_Fq_P : fp_params :=
  {| fp_n := 5;
     fp_modulus := limbs_of 5 475922286169261325753349249653048451545124878552823515553267735739164647307408490559963137;
     fp_inv := 0xbb4334a3ffffffff;
     fp_Rsquared := limbs_of 5 163983144722506446826715124368972380525894397127205577781234305496325861831001705438796139;
     fp_Rcubed := limbs_of 5 207236281459091063710247635236340312578688659363066707916716212805695955118593239854980171;
     fp_num_bits := 298 |}.
Definition mnt6_Fq_C : field_consts :=
  {| fc_P := mnt6_Fq_P;
     fc_euler := 237961143084630662876674624826524225772562439276411757776633867869582323653704245279981568;
     fc_s := 34;
     fc_t := 27702323054502562488973446286577291993024111641153199339359284829066871159442729;
     fc_tm1 := 13851161527251281244486723143288645996512055820576599669679642414533435579721364;
     fc_gen := 10;
     fc_rou := 120638817826913173458768829485690099845377008030891618010109772937363554409782252579816313;
     fc_nqr := 5;
     fc_nqr_to_t := 406220604243090401056429458730298145937262552508985450684842547562990900634752279902740880 |}.

(** Every prime field shipped with the library. *)
Definition shipped_fields : list field_consts :=
  [alt_bn128_Fr_C; alt_bn128_Fq_C; bn128_Fr_C; bn128_Fq_C; bls12_381_Fr_C; bls12_381_Fq_C; edwards_Fr_C; edwards_Fq_C; mnt4_Fr_C; mnt4_Fq_C; mnt6_Fr_C; mnt6_Fq_C].
