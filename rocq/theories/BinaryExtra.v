(** Binary fields: powers of elements and random sampling. *)
From Coq Require Import NArith ZArith List Bool Lia Arith.
From Verif Require Import Result Limbs LimbsProofs Algebra FieldOps BigintModel BigintProofs AlgorithmsModel AlgorithmsProofs Gf2Poly BinaryModel BinaryProofs BinaryInst BinaryOrder.
Import ListNotations.
Open Scope N_scope.

(** a * (a * ... * 1): n factors. *)
Section Pow.
Variables (asm kara : bool) (g : gf_name).
Let mul := gf_mul_cfg asm kara g.
Let F := cfg_ops asm kara g.
Lemma rep_npow x n : rep (npow (o1 F) (omul F) x n) = npow (gf_one (gf_of g)) mul (rep x) n.
Proof. induction n; cbn [npow]; [reflexivity|]. now rewrite <- IHn. Qed.
Theorem pow_bigint a e : gok (gf_of g) a -> limbs e ->
  gf_pow_bigint mul g a e = npow (gf_one (gf_of g)) mul a (Z.to_nat (val e)).
Proof.
  intros Ha He. change a with (rep (mkGF a Ha)). rewrite <- rep_npow.
  rewrite (pow_code asm kara g _ e He). reflexivity.
Qed.
Theorem pow_ulong a e : gok (gf_of g) a -> (0 <= e < 2 ^ 64)%Z ->
  gf_pow_ulong mul g a e = npow (gf_one (gf_of g)) mul a (Z.to_nat e).
Proof.
  intros Ha He. destruct (bigint_of_ulong_spec 1 e) as (V & L & _); [lia|exact He|].
  rewrite <- V. rewrite <- (pow_bigint a _ Ha L). unfold gf_pow_ulong, power_ulong, gf_pow_bigint. rewrite V. reflexivity.
Qed.
End Pow.

Definition bytes (bs : list N) : Prop := Forall (fun b => b < 256) bs.
Lemma le_word_lt bs : bytes bs -> le_word bs < 256 ^ N.of_nat (length bs).
Proof.
  induction 1 as [|b bs Hb H IH]; cbn [le_word length]; [reflexivity|].
  rewrite Nat2N.inj_succ, N.pow_succ_r'. nia.
Qed.
Lemma le_word_inj a : forall b, bytes a -> bytes b -> length a = length b -> le_word a = le_word b -> a = b.
Proof.
  induction a as [|x a IH]; intros [|y b] Ha Hb L E; try discriminate; auto.
  inversion Ha; inversion Hb; subst. cbn [le_word] in E. injection L as L.
  assert (x = y) by (rewrite <- (N.mod_small x 256), <- (N.mod_small y 256) by auto;
    rewrite <- (N.mod_add x (le_word a) 256), <- (N.mod_add y (le_word b) 256), !(N.mul_comm _ 256), E by discriminate; reflexivity).
  subst y. f_equal. apply IH; auto. lia.
Qed.
Lemma le_word_surj n : forall v, v < 256 ^ N.of_nat n -> exists bs, bytes bs /\ length bs = n /\ le_word bs = v.
Proof.
  induction n as [|n IH]; intros v Hv.
  - exists []. split; [constructor|]. split; [reflexivity|]. cbn in *. lia.
  - rewrite Nat2N.inj_succ, N.pow_succ_r' in Hv.
    destruct (IH (v / 256)) as (bs & B & L & E); [apply N.div_lt_upper_bound; [discriminate|exact Hv]|].
    exists (v mod 256 :: bs). split; [constructor; auto; apply N.mod_lt; discriminate|].
    split; [cbn; lia|]. cbn [le_word]. rewrite E. pose proof (N.div_mod v 256). lia.
Qed.
Lemma bytes_app a b : bytes (a ++ b) <-> bytes a /\ bytes b.
Proof. apply Forall_app. Qed.
Lemma bytes_split w bs : bytes bs -> bytes (firstn w bs) /\ bytes (skipn w bs).
Proof. intros H. apply bytes_app. now rewrite firstn_skipn. Qed.

Lemma words_of_bytes_ok w n : forall bs, bytes bs -> length bs = (n * w)%nat ->
  length (words_of_bytes w n bs) = n /\ Forall (fun v => v < 256 ^ N.of_nat w) (words_of_bytes w n bs).
Proof.
  induction n as [|n IH]; intros bs B L; cbn [words_of_bytes length]; [split; auto|].
  destruct (bytes_split w bs B) as [B1 B2]. cbn in L.
  destruct (IH (skipn w bs) B2) as [L1 F1]; [rewrite skipn_length; lia|]. split; [lia|]. constructor; auto.
  pose proof (le_word_lt _ B1) as H. rewrite firstn_length, Nat.min_l in H by lia. exact H.
Qed.
Lemma words_of_bytes_inj w n : forall a b, bytes a -> bytes b -> length a = (n * w)%nat -> length b = (n * w)%nat ->
  words_of_bytes w n a = words_of_bytes w n b -> a = b.
Proof.
  induction n as [|n IH]; intros a b Ba Bb La Lb E; cbn in La, Lb.
  - destruct a, b; try discriminate; auto.
  - cbn [words_of_bytes] in E. injection E as E1 E2.
    destruct (bytes_split w a Ba), (bytes_split w b Bb).
    rewrite <- (firstn_skipn w a), <- (firstn_skipn w b). f_equal.
    + apply le_word_inj; auto. rewrite !firstn_length. lia.
    + apply IH; auto; rewrite skipn_length; lia.
Qed.
Lemma words_of_bytes_surj w n : forall ws, length ws = n -> Forall (fun v => v < 256 ^ N.of_nat w) ws ->
  exists bs, bytes bs /\ length bs = (n * w)%nat /\ words_of_bytes w n bs = ws.
Proof.
  induction n as [|n IH]; intros ws L H.
  - destruct ws; [|discriminate]. exists []. split; [constructor|]. split; reflexivity.
  - destruct ws as [|v ws]; [discriminate|]. inversion H; subst. injection L as L.
    destruct (IH ws L) as (bs & B & Lb & E); auto. destruct (le_word_surj w v) as (b1 & B1 & L1 & E1); auto.
    exists (b1 ++ bs). split; [apply bytes_app; auto|]. split; [rewrite app_length; cbn; lia|].
    cbn [words_of_bytes].
    rewrite <- L1, firstn_app, skipn_app, Nat.sub_diag, firstn_all, skipn_all. cbn [firstn skipn]. rewrite app_nil_r. cbn [app].
    rewrite L1, E1, E. reflexivity.
Qed.
Lemma class_bytes g : N.to_nat (gk (gf_of g) / 8) = (gn (gf_of g) * N.to_nat (gW (gf_of g) / 8))%nat /\
  256 ^ N.of_nat (N.to_nat (gW (gf_of g) / 8)) = 2 ^ gW (gf_of g).
Proof. destruct g; split; vm_compute; reflexivity. Qed.

(** Every block of k/8 bytes gives an element and every element comes from exactly one block. *)
Theorem randomize_element g bs : bytes bs -> length bs = N.to_nat (gk (gf_of g) / 8) ->
  gok (gf_of g) (gf_randomize (gf_of g) bs).
Proof.
  intros B L. destruct (class_bytes g) as [E1 E2]. rewrite E1 in L.
  destruct (words_of_bytes_ok _ _ bs B L) as [L1 F1]. split; [exact L1|]. rewrite E2 in F1. exact F1.
Qed.
Theorem randomize_uniform g a : gok (gf_of g) a ->
  exists! bs, bytes bs /\ length bs = N.to_nat (gk (gf_of g) / 8) /\ gf_randomize (gf_of g) bs = a.
Proof.
  intros [La Wa]. destruct (class_bytes g) as [E1 E2]. rewrite E1.
  destruct (words_of_bytes_surj (N.to_nat (gW (gf_of g) / 8)) (gn (gf_of g)) a La) as (bs & B & L & E).
  { rewrite E2. exact Wa. }
  exists bs. split; [split; [|split]; auto|]. intros bs' (B' & L' & E').
  apply (words_of_bytes_inj (N.to_nat (gW (gf_of g) / 8)) (gn (gf_of g))); auto. unfold gf_randomize in E'. congruence.
Qed.
