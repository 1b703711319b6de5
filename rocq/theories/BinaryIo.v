(** Binary field elements as words and on streams. *)
From Coq Require Import NArith ZArith List Bool Lia Arith.
From Verif Require Import Result Limbs LimbsProofs StreamModel StreamProofs BinaryModel BinaryProofs BinaryInst.
Import ListNotations.
Open Scope N_scope.

Lemma map_cut_words G l : words (gW G) l -> map (cut G) l = l.
Proof. induction 1; cbn [map]; auto. rewrite IHForall, cut_mod, N.mod_small; auto. Qed.
Theorem words_roundtrip G a : gok G a -> gf_from_words G (gf_to_words a) = Ok a.
Proof.
  intros [L Hw]. unfold gf_from_words, gf_to_words. rewrite <- L, Nat.ltb_irrefl, firstn_all.
  now rewrite map_cut_words.
Qed.
(** from_words of any vector that is long enough gives an element made of its
    first words; a shorter one is read out of bounds. *)
Theorem from_words_ok G ws : (gn G <= length ws)%nat ->
  exists a, gf_from_words G ws = Ok a /\ gok G a /\ a = map (fun w => w mod 2 ^ gW G) (firstn (gn G) ws).
Proof.
  intros L. unfold gf_from_words. destruct (Nat.ltb_spec (length ws) (gn G)); [lia|].
  exists (map (cut G) (firstn (gn G) ws)). split; [|split]; auto.
  - split; [rewrite map_length, firstn_length; lia|]. apply Forall_forall. intros w Hw.
    apply in_map_iff in Hw as (v & <- & _). rewrite cut_mod. apply mod_pow2_lt.
  - apply map_ext. intros w. apply cut_mod.
Qed.
Theorem from_words_short G ws : (length ws < gn G)%nat -> gf_from_words G ws = UB.
Proof. intros L. unfold gf_from_words. now apply Nat.ltb_lt in L as ->. Qed.

Section Read.
Variable G : gf_class.
Hypothesis W64 : gW G <= 64.
Notation W := (gW G).
Lemma read_word_dec ws w rest : w < 2 ^ W -> number_end rest -> Forall (fun c => is_space c = true) ws ->
  read_word G (ws ++ dec (Z.of_N w) ++ rest) = Ok (w, rest).
Proof.
  intros Hw Hr Hs. unfold read_word.
  assert (Hz : (Z.of_N w < 2 ^ Z.of_N W)%Z).
  { change 2%Z with (Z.of_N 2). rewrite <- N2Z.inj_pow. lia. }
  assert (HB : (Z.of_N w < B)%Z).
  { eapply Z.lt_le_trans; [apply Hz|]. change B with (2 ^ 64)%Z. apply Z.pow_le_mono_r; lia. }
  rewrite read_u64_dec by (auto; lia). cbn [bind].
  apply Z.ltb_lt in Hz as ->. now rewrite N2Z.id.
Qed.
Lemma read_words_write : forall a ws rest, words W a -> number_end rest -> a <> [] ->
  Forall (fun c => is_space c = true) ws ->
  read_words G (length a) (ws ++ gf_write a ++ rest) = Ok (a, rest).
Proof.
  induction a as [|w a IH]; intros ws rest Hw Hr Ha Hs; [congruence|].
  apply words_cons in Hw as [Hw Ha']. cbn [length read_words]. destruct a as [|v a].
  - cbn [gf_write read_words length]. now rewrite read_word_dec.
  - change (gf_write (w :: v :: a)) with (dec (Z.of_N w) ++ [ch_sp] ++ gf_write (v :: a)).
    rewrite <- app_assoc, read_word_dec by (auto; reflexivity).
    cbn [bind]. rewrite <- app_assoc, IH; auto. discriminate.
Qed.
Theorem read_write a ws rest : gok G a -> (1 <= gn G)%nat -> number_end rest ->
  Forall (fun c => is_space c = true) ws -> gf_read G (ws ++ gf_write a ++ rest) = Ok (a, rest).
Proof.
  intros [L Hw] N1 Hr Hs. unfold gf_read. rewrite <- L. apply read_words_write; auto.
  intros ->. cbn in L. lia.
Qed.
(** Whatever is read is an element. *)
Lemma read_words_ok n : forall s a r, read_words G n s = Ok (a, r) -> length a = n /\ words W a.
Proof.
  induction n as [|n IH]; intros s a r H; cbn [read_words] in H.
  - injection H as <- <-. split; [auto|constructor].
  - destruct (read_word G s) as [[w s1]| | | | |] eqn:E1; try discriminate. cbn [bind] in H.
    destruct (read_words G n s1) as [[l s2]| | | | |] eqn:E2; try discriminate. cbn [bind] in H.
    injection H as <- <-. destruct (IH _ _ _ E2) as [L Wd]. split; [cbn; lia|]. constructor; auto.
    unfold read_word in E1. destruct (read_u64 s) as [[z s']| | | | |] eqn:E; try discriminate. cbn [bind] in E1.
    destruct (Z.ltb_spec z (2 ^ Z.of_N W)) as [Lz|]; [|discriminate]. injection E1 as <- _.
    assert (Hp : (0 < 2 ^ Z.of_N W)%Z) by (apply Z.pow_pos_nonneg; lia).
    assert (Hq : (0 < 2 ^ W)%N) by (pose proof (pow2_nz W); lia).
    destruct (Z.le_gt_cases 0 z) as [Z0|Z0]; [|destruct z; try lia; exact Hq].
    rewrite <- (N2Z.id (2 ^ W)), N2Z.inj_pow. apply Z2N.inj_lt; [lia| |exact Lz]. apply Z.lt_le_incl. exact Hp.
Qed.
End Read.
Lemma class_W64 g : gW (gf_of g) <= 64. Proof. destruct g; vm_compute; discriminate. Qed.
Theorem class_read_write g a ws rest : gok (gf_of g) a -> number_end rest ->
  Forall (fun c => is_space c = true) ws -> gf_read (gf_of g) (ws ++ gf_write a ++ rest) = Ok (a, rest).
Proof. intros Ha Hr Hs. apply read_write; auto using class_W64, class_n1. Qed.
Theorem class_read_ok g s a r : gf_read (gf_of g) s = Ok (a, r) -> gok (gf_of g) a.
Proof. intros H. eapply read_words_ok; [apply class_W64|exact H]. Qed.
