(** All shipped prime fields satisfy [field_consts_ok]. *)
From Coq Require Import ZArith List.
From Verif Require Import ParamsModel ParamsProofs ParamsA ParamsB ParamsC ParamsD.
Import ListNotations.

Theorem shipped_fields_ok C : In C shipped_fields -> field_consts_ok C.
Proof.
  cbn [In shipped_fields].
  intros [<-|[<-|[<-|[<-|[<-|[<-|[<-|[<-|[<-|[<-|[<-|[<-|[]]]]]]]]]]]]].
  - exact alt_bn128_Fr_ok.
  - exact alt_bn128_Fq_ok.
  - exact bn128_Fr_ok.
  - exact bn128_Fq_ok.
  - exact bls12_381_Fr_ok.
  - exact bls12_381_Fq_ok.
  - exact edwards_Fr_ok.
  - exact edwards_Fq_ok.
  - exact mnt4_Fr_ok.
  - exact mnt4_Fq_ok.
  - exact mnt6_Fr_ok.
  - exact mnt6_Fq_ok.
Qed.
