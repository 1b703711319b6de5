(** Integer multiples in an abelian group. *)
From Coq Require Import ZArith List Bool Lia.
From Verif Require Import Result Algebra GroupOps.
Import ListNotations.
Open Scope Z_scope.

Section AGroup.
Context {G : Type} (z : G) (add : G -> G -> G) (opp : G -> G).
Hypothesis AG : agroup z add opp.
Notation M := (ag_monoid _ _ _ AG).
Notation mul := (gmul z add opp).

Lemma ag_0_l x : add z x = x. Proof. apply (ml_1_l _ _ M). Qed.
Lemma ag_0_r x : add x z = x. Proof. apply (ml_1_r _ _ M). Qed.
Lemma ag_assoc x y w : add x (add y w) = add (add x y) w. Proof. apply (ml_assoc _ _ M). Qed.
Lemma ag_commut x y : add x y = add y x. Proof. apply AG. Qed.
Lemma ag_opp_r x : add x (opp x) = z. Proof. apply AG. Qed.
Lemma ag_opp_l x : add (opp x) x = z. Proof. rewrite ag_commut. apply AG. Qed.
Lemma ag_cancel x y w : add x w = add y w -> x = y.
Proof.
  intros H. rewrite <- (ag_0_r x), <- (ag_0_r y), <- (ag_opp_r w), !ag_assoc. now rewrite H.
Qed.
Lemma ag_opp_unique x y : add x y = z -> y = opp x.
Proof. intros H. apply (ag_cancel _ _ x). now rewrite ag_opp_l, ag_commut. Qed.
Lemma ag_opp_zero : opp z = z.
Proof. symmetry. apply ag_opp_unique, ag_0_l. Qed.
Lemma ag_opp_opp x : opp (opp x) = x.
Proof. symmetry. apply ag_opp_unique, ag_opp_l. Qed.
Lemma ag_4 a b c d : add (add a b) (add c d) = add (add a c) (add b d).
Proof.
  rewrite <- !ag_assoc. f_equal. rewrite !ag_assoc. f_equal. apply ag_commut.
Qed.
Lemma ag_opp_add x y : opp (add x y) = add (opp x) (opp y).
Proof. symmetry. apply ag_opp_unique. now rewrite ag_4, !ag_opp_r, ag_0_l. Qed.

Lemma gmul_nat n x : mul (Z.of_nat n) x = npow z add x n.
Proof. unfold gmul. replace (_ <? 0) with false by (symmetry; apply Z.ltb_ge; lia). now rewrite Nat2Z.id. Qed.
Lemma gmul_pos k x : 0 <= k -> mul k x = npow z add x (Z.to_nat k).
Proof. intros. unfold gmul. replace (_ <? 0) with false; auto. symmetry; apply Z.ltb_ge; lia. Qed.
Lemma gmul_0 x : mul 0 x = z. Proof. reflexivity. Qed.
Lemma gmul_1 x : mul 1 x = x. Proof. apply ag_0_r. Qed.
Lemma gmul_opp k x : mul (- k) x = opp (mul k x).
Proof.
  unfold gmul. destruct (Z.ltb_spec k 0), (Z.ltb_spec (- k) 0); try lia.
  - now rewrite ag_opp_opp.
  - now rewrite Z.opp_involutive.
  - assert (k = 0) as -> by lia. cbn. now rewrite ag_opp_zero.
Qed.
Lemma gmul_succ k x : mul (k + 1) x = add (mul k x) x.
Proof.
  destruct (Z.leb_spec 0 k).
  - rewrite !gmul_pos by lia. replace (Z.to_nat (k + 1)) with (S (Z.to_nat k)) by lia.
    apply npow_S_r, M.
  - assert (exists j, 0 < j /\ k = - j) as (j & Hj & ->) by (exists (- k); lia).
    replace (- j + 1) with (- (j - 1)) by lia.
    rewrite (gmul_opp j), (gmul_opp (j - 1)), !gmul_pos by lia.
    replace (Z.to_nat j) with (S (Z.to_nat (j - 1))) by lia.
    cbn [npow]. rewrite ag_opp_add, (ag_commut (opp x)), <- ag_assoc, ag_opp_l. now rewrite ag_0_r.
Qed.
Lemma gmul_add a b x : mul (a + b) x = add (mul a x) (mul b x).
Proof.
  revert b. apply Z.peano_ind.
  - now rewrite Z.add_0_r, gmul_0, ag_0_r.
  - intros b IH. rewrite Z.add_succ_r, <- !Z.add_1_r, !gmul_succ, IH. now rewrite ag_assoc.
  - intros b IH. apply (ag_cancel _ _ x). rewrite <- ag_assoc, <- !gmul_succ.
    replace (a + Z.pred b + 1) with (a + b) by lia. replace (Z.pred b + 1) with b by lia. exact IH.
Qed.
Lemma gmul_sub a b x : mul (a - b) x = add (mul a x) (opp (mul b x)).
Proof. now rewrite <- Z.add_opp_r, gmul_add, gmul_opp. Qed.
Lemma gmul_zero k : mul k z = z.
Proof.
  unfold gmul. destruct (k <? 0); rewrite (npow_one z add M); auto using ag_opp_zero.
Qed.
Lemma gmul_distr k x y : mul k (add x y) = add (mul k x) (mul k y).
Proof.
  unfold gmul. destruct (k <? 0); rewrite (npow_mul_distr z add M ag_commut); auto.
  apply ag_opp_add.
Qed.
Lemma gmul_mul a b x : mul (a * b) x = mul a (mul b x).
Proof.
  revert a. apply Z.peano_ind.
  - now rewrite Z.mul_0_l, !gmul_0.
  - intros a IH. rewrite Z.mul_succ_l, gmul_add, IH, <- Z.add_1_r, gmul_succ. reflexivity.
  - intros a IH. apply (ag_cancel _ _ (mul b x)). rewrite <- gmul_succ.
    replace (Z.pred a + 1) with a by lia. rewrite <- IH, <- gmul_add. f_equal. lia.
Qed.
Lemma gmul_2 x : mul 2 x = add x x.
Proof. change 2 with (1 + 1). now rewrite gmul_add, gmul_1. Qed.

Lemma gsum_app l l' : nprod z add (l ++ l') = add (nprod z add l) (nprod z add l').
Proof. apply nprod_app, M. Qed.
End AGroup.

(** ** A reflexive decision procedure for equations in an abelian group *)
Inductive aexp : Type :=
| AVar (n : nat)
| AZero
| AAdd (a b : aexp)
| AOpp (a : aexp).

Fixpoint vadd (a b : list Z) : list Z :=
  match a, b with
  | [], _ => b
  | _, [] => a
  | x :: a', y :: b' => x + y :: vadd a' b'
  end.
Fixpoint vvar (n : nat) : list Z := match n with O => [1] | S n' => 0 :: vvar n' end.
Fixpoint anorm (e : aexp) : list Z :=
  match e with
  | AVar n => vvar n
  | AZero => []
  | AAdd a b => vadd (anorm a) (anorm b)
  | AOpp a => map Z.opp (anorm a)
  end.
(** Equality of coefficient vectors up to trailing zeros. *)
Fixpoint all0 (a : list Z) : bool := match a with [] => true | x :: a' => (x =? 0) && all0 a' end.
Fixpoint veqb (a b : list Z) : bool :=
  match a, b with
  | [], _ => all0 b
  | _, [] => all0 a
  | x :: a', y :: b' => (x =? y) && veqb a' b'
  end.

Section Decide.
Context {G : Type} (z : G) (add : G -> G -> G) (opp : G -> G).
Hypothesis AG : agroup z add opp.
Fixpoint aeval (env : list G) (e : aexp) : G :=
  match e with
  | AVar n => nth n env z
  | AZero => z
  | AAdd a b => add (aeval env a) (aeval env b)
  | AOpp a => opp (aeval env a)
  end.
Fixpoint veval (env : list G) (v : list Z) : G :=
  match v, env with
  | x :: v', g :: env' => add (gmul z add opp x g) (veval env' v')
  | _, _ => z
  end.
Lemma veval_nil env : veval env [] = z. Proof. now destruct env. Qed.
Lemma veval_add env a b : veval env (vadd a b) = add (veval env a) (veval env b).
Proof.
  revert a b; induction env as [|g env IH]; intros [|x a] [|y b]; cbn [vadd veval];
    rewrite ?(ag_0_l z add opp AG), ?(ag_0_r z add opp AG); auto.
  rewrite IH, (gmul_add z add opp AG). apply (ag_4 z add opp AG).
Qed.
Lemma veval_var env n : veval env (vvar n) = nth n env z.
Proof.
  revert env; induction n; intros [|g env]; cbn [vvar veval nth]; auto.
  - now rewrite veval_nil, (gmul_1 z add opp AG), (ag_0_r z add opp AG).
  - rewrite IHn. now rewrite gmul_0, (ag_0_l z add opp AG).
Qed.
Lemma veval_opp env a : veval env (map Z.opp a) = opp (veval env a).
Proof.
  revert a; induction env as [|g env IH]; intros [|x a]; cbn [map veval];
    rewrite ?(ag_opp_zero z add opp AG); auto.
  now rewrite IH, (gmul_opp z add opp AG), (ag_opp_add z add opp AG).
Qed.
Lemma anorm_spec env e : veval env (anorm e) = aeval env e.
Proof.
  induction e; cbn [anorm aeval].
  - apply veval_var.
  - now destruct env.
  - rewrite veval_add. congruence.
  - rewrite veval_opp. congruence.
Qed.
Lemma all0_spec env a : all0 a = true -> veval env a = z.
Proof.
  revert env; induction a as [|x a IH]; intros [|g env] H; cbn [veval]; auto.
  cbn in H. apply andb_true_iff in H as [Hx Ha]. apply Z.eqb_eq in Hx. subst.
  rewrite gmul_0, IH by auto. apply (ag_0_l z add opp AG).
Qed.
Lemma veqb_spec env a b : veqb a b = true -> veval env a = veval env b.
Proof.
  revert a b; induction env as [|g env IH]; intros a b H; [now destruct a, b|].
  destruct a as [|x a], b as [|y b]; cbn [veqb] in H; auto.
  - symmetry. rewrite (all0_spec (g :: env) (y :: b)); auto.
  - rewrite (all0_spec (g :: env) (x :: a)); auto.
  - apply andb_true_iff in H as [Hx Ha]. apply Z.eqb_eq in Hx. subst. cbn [veval]. f_equal. auto.
Qed.
Lemma adecide env e f : veqb (anorm e) (anorm f) = true -> aeval env e = aeval env f.
Proof. intros H. rewrite <- !anorm_spec. now apply veqb_spec. Qed.
End Decide.

Ltac ag_mem x env :=
  match env with
  | nil => constr:(false)
  | x :: _ => constr:(true)
  | _ :: ?e => ag_mem x e
  end.
Ltac ag_index x env :=
  match env with
  | x :: _ => constr:(O)
  | _ :: ?e => let n := ag_index x e in constr:(S n)
  end.
Ltac ag_env z add opp t env :=
  lazymatch t with
  | z => env
  | add ?a ?b => let e := ag_env z add opp a env in ag_env z add opp b e
  | opp ?a => ag_env z add opp a env
  | ?x => match ag_mem x env with true => env | false => constr:(x :: env) end
  end.
Ltac ag_reify z add opp t env :=
  lazymatch t with
  | z => constr:(AZero)
  | add ?a ?b =>
      let ea := ag_reify z add opp a env in let eb := ag_reify z add opp b env in constr:(AAdd ea eb)
  | opp ?a => let ea := ag_reify z add opp a env in constr:(AOpp ea)
  | ?x => let n := ag_index x env in constr:(AVar n)
  end.
(** [agroup_eq AG] proves equations that hold in every abelian group. *)
Ltac agroup_eq AG :=
  lazymatch type of AG with
  | agroup ?z ?add ?opp =>
      lazymatch goal with
      | |- ?l = ?r =>
          let G := type of l in
          let e0 := ag_env z add opp l (@nil G) in
          let env := ag_env z add opp r e0 in
          let el := ag_reify z add opp l env in
          let er := ag_reify z add opp r env in
          exact (adecide z add opp AG env el er eq_refl)
      end
  end.
