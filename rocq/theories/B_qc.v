(** Lemmas about exact rational samples, and a linear arithmetic tactic for them. *)
From Verif Require Import Py B_list PyQ.
From Coq Require Import Lqa.
Open Scope Z_scope.

Lemma this_plus x y : (this (x + y)%Qc == this x + this y)%Q. Proof. apply Qred_correct. Qed.
Lemma this_mult x y : (this (x * y)%Qc == this x * this y)%Q. Proof. apply Qred_correct. Qed.
Lemma this_opp x : (this (- x)%Qc == - this x)%Q. Proof. apply Qred_correct. Qed.
Lemma this_minus x y : (this (x - y)%Qc == this x - this y)%Q.
Proof. unfold Qcminus. rewrite this_plus, this_opp. reflexivity. Qed.
Lemma this_ofZ z : (this (ofZ z) == inject_Z z)%Q. Proof. apply Qred_correct. Qed.
Lemma this_Q2Qc q : (this (Q2Qc q) == q)%Q. Proof. apply Qred_correct. Qed.
Lemma Qc_eq_this x y : x = y -> (this x == this y)%Q. Proof. now intros ->. Qed.
Lemma Qcle_this x y : (x <= y)%Qc -> (this x <= this y)%Q. Proof. auto. Qed.
Lemma Qclt_this x y : (x < y)%Qc -> (this x < this y)%Q. Proof. auto. Qed.

(** Turn goals and hypotheses about [Qc] into [Q] (linear part) and call [lra]. *)
Ltac qc_norm :=
  repeat match goal with
  | H : @eq Qc _ _ |- _ => apply Qc_eq_this in H
  | H : Qclt _ _ |- _ => apply Qclt_this in H
  | H : Qcle _ _ |- _ => apply Qcle_this in H
  end;
  try match goal with
  | |- @eq Qc _ _ => apply Qc_is_canon
  | |- Qclt _ _ => unfold Qclt
  | |- Qcle _ _ => unfold Qcle
  end;
  repeat (progress rewrite ?this_minus, ?this_plus, ?this_opp, ?this_mult, ?this_ofZ, ?this_Q2Qc in *).
Ltac qlra := qc_norm; unfold inject_Z in *; lra.

Lemma Qcltb_spec x y : Qcltb x y = true <-> (x < y)%Qc.
Proof. unfold Qcltb. rewrite Qclt_alt. destruct (x ?= y)%Qc; split; congruence. Qed.
Lemma Qcltb_false x y : Qcltb x y = false <-> (y <= x)%Qc.
Proof.
  split; intros H.
  - apply Qcnot_lt_le. intros L. apply Qcltb_spec in L. congruence.
  - destruct (Qcltb x y) eqn:E; auto. apply Qcltb_spec in E. qlra.
Qed.
Lemma Qcleb_spec x y : Qcleb x y = true <-> (x <= y)%Qc.
Proof. unfold Qcleb. rewrite Qcle_alt. destruct (x ?= y)%Qc; split; congruence. Qed.
Lemma Qcleb_false x y : Qcleb x y = false <-> (y < x)%Qc.
Proof.
  split; intros H.
  - apply Qcnot_le_lt. intros L. apply Qcleb_spec in L. congruence.
  - destruct (Qcleb x y) eqn:E; auto. apply Qcleb_spec in E. qlra.
Qed.
Lemma Qceqb_spec x y : Qceqb x y = true <-> x = y.
Proof. unfold Qceqb. rewrite Qceq_alt. destruct (x ?= y)%Qc; split; congruence. Qed.

Lemma abs_cases x : (0 <= x /\ Qcabs x = x)%Qc \/ (x <= 0 /\ Qcabs x = - x)%Qc.
Proof.
  destruct (Qclt_le_dec x 0) as [H|H].
  - right. split; [apply Qclt_le_weak, H|apply Qcabs_neg, Qclt_le_weak, H].
  - left. split; auto using Qcabs_pos.
Qed.
(** Case split on every absolute value in sight. *)
Ltac abs_split :=
  repeat match goal with
  | |- context [Qcabs ?x] => let E := fresh in let L := fresh in destruct (abs_cases x) as [[L E]|[L E]]; rewrite E in *; clear E
  | H : context [Qcabs ?x] |- _ => let E := fresh in let L := fresh in destruct (abs_cases x) as [[L E]|[L E]]; rewrite E in *; clear E
  end.
Ltac qabs := abs_split; qlra.

Lemma ofZ_add a b : ofZ (a + b) = (ofZ a + ofZ b)%Qc. Proof. qc_norm. now rewrite <- inject_Z_plus. Qed.
Lemma ofZ_mul a b : ofZ (a * b) = (ofZ a * ofZ b)%Qc. Proof. qc_norm. now rewrite <- inject_Z_mult. Qed.
Lemma ofZ_opp a : ofZ (- a) = (- ofZ a)%Qc. Proof. qc_norm. now rewrite <- inject_Z_opp. Qed.
Lemma ofZ_sub a b : ofZ (a - b) = (ofZ a - ofZ b)%Qc. Proof. unfold Qcminus. now rewrite <- ofZ_opp, <- ofZ_add. Qed.
Lemma ofZ_le a b : (ofZ a <= ofZ b)%Qc <-> a <= b.
Proof. unfold Qcle. rewrite !this_ofZ. rewrite Zle_Qle. reflexivity. Qed.
Lemma ofZ_lt a b : (ofZ a < ofZ b)%Qc <-> a < b.
Proof. unfold Qclt. rewrite !this_ofZ. rewrite Zlt_Qlt. reflexivity. Qed.
Lemma ofZ_inj a b : ofZ a = ofZ b -> a = b.
Proof. intros H. apply Z.le_antisymm; apply ofZ_le; rewrite H; apply Qcle_refl. Qed.

(** First minimum. *)
Lemma argminQ_from_spec l : forall best bi i pre,
  length pre = i -> (bi < i)%nat -> nth bi pre 0%Qc = best ->
  (forall j, (j < i)%nat -> (best <= nth j pre 0)%Qc) -> (forall j, (j < bi)%nat -> (best < nth j pre 0)%Qc) ->
  let k := argminQ_from best bi i l in
  (k < i + length l)%nat /\ (forall j, (j < i + length l)%nat -> (nth k (pre ++ l) 0 <= nth j (pre ++ l) 0)%Qc) /\
  (forall j, (j < k)%nat -> (nth k (pre ++ l) 0 < nth j (pre ++ l) 0)%Qc).
Proof.
  induction l as [|x l IH]; intros best bi i pre L B N M S0; cbn [argminQ_from length].
  - rewrite app_nil_r, Nat.add_0_r. cbn zeta. rewrite N. auto.
  - assert (A : pre ++ x :: l = (pre ++ [x]) ++ l) by (now rewrite <- app_assoc). rewrite A.
    replace (i + S (length l))%nat with (S i + length l)%nat by lia.
    destruct (Qcltb x best) eqn:E; [apply Qcltb_spec in E|apply Qcltb_false in E]; apply IH.
    + rewrite app_length. cbn. lia.
    + lia.
    + rewrite app_nth2 by lia. replace (i - length pre)%nat with 0%nat by lia. reflexivity.
    + intros j Hj. destruct (Nat.lt_ge_cases j i).
      * rewrite app_nth1 by lia. specialize (M j ltac:(lia)). qlra.
      * rewrite app_nth2 by lia. replace (j - length pre)%nat with 0%nat by lia. apply Qcle_refl.
    + intros j Hj. rewrite app_nth1 by lia. specialize (M j ltac:(lia)). qlra.
    + rewrite app_length. cbn. lia.
    + lia.
    + rewrite app_nth1 by lia. auto.
    + intros j Hj. destruct (Nat.lt_ge_cases j i).
      * rewrite app_nth1 by lia. auto.
      * rewrite app_nth2 by lia. replace (j - length pre)%nat with 0%nat by lia. auto.
    + intros j Hj. rewrite app_nth1 by lia. auto.
Qed.
Lemma argminQ_spec l : l <> [] -> exists k, argminQ l = Ok k /\ (k < length l)%nat /\
  (forall j, (j < length l)%nat -> (nth k l 0 <= nth j l 0)%Qc) /\ (forall j, (j < k)%nat -> (nth k l 0 < nth j l 0)%Qc).
Proof.
  destruct l as [|x l]; [congruence|]. intros _. eexists. split; [reflexivity|].
  apply (argminQ_from_spec l x 0 1 [x]); auto; try lia.
  - intros j Hj. destruct j; [apply Qcle_refl|lia].
Qed.
Lemma argmaxQ_spec l : l <> [] -> exists k, argmaxQ l = Ok k /\ (k < length l)%nat /\
  (forall j, (j < length l)%nat -> (nth j l 0 <= nth k l 0)%Qc) /\ (forall j, (j < k)%nat -> (nth j l 0 < nth k l 0)%Qc).
Proof.
  intros N. destruct (argminQ_spec (map Qcopp l)) as (k & E & L & M & S0).
  { destruct l; [congruence|discriminate]. }
  rewrite map_length in *. exists k. split; [exact E|]. split; auto.
  assert (A : forall j, (j < length l)%nat -> nth j (map Qcopp l) 0%Qc = (- nth j l 0)%Qc).
  { intros j Hj. rewrite (nth_indep _ _ (- 0)%Qc) by (rewrite map_length; lia). apply map_nth. }
  split; intros j Hj.
  - specialize (M j Hj). rewrite !A in M by lia. qlra.
  - specialize (S0 j Hj). rewrite !A in S0 by lia. qlra.
Qed.
(** The first minimum is unique. *)
Lemma first_min_unique (g : nat -> Qc) n a b :
  (a < n)%nat -> (b < n)%nat -> (forall j, (j < n)%nat -> (g a <= g j)%Qc) -> (forall j, (j < a)%nat -> (g a < g j)%Qc) ->
  (forall j, (j < n)%nat -> (g b <= g j)%Qc) -> (forall j, (j < b)%nat -> (g b < g j)%Qc) -> a = b.
Proof.
  intros Ha Hb A1 A2 B1 B2. destruct (Nat.lt_trichotomy a b) as [H|[H|H]]; auto.
  - specialize (B2 a H). specialize (A1 b Hb). exfalso. qlra.
  - specialize (A2 b H). specialize (B1 a Ha). exfalso. qlra.
Qed.
(** Sums. *)
Lemma sumQ_app u v : sumQ (u ++ v) = (sumQ u + sumQ v)%Qc.
Proof. induction u as [|x u IH]; cbn [sumQ fold_right app]; [change (fold_right Qcplus (ofZ 0) v) with (sumQ v); qlra|]. fold (sumQ (u ++ v)). rewrite IH. fold (sumQ u). ring. Qed.
Lemma sumQ_cons x u : sumQ (x :: u) = (x + sumQ u)%Qc. Proof. reflexivity. Qed.
Lemma sumQ_map_add {A} (f g : A -> Qc) l : sumQ (map (fun x => f x + g x)%Qc l) = (sumQ (map f l) + sumQ (map g l))%Qc.
Proof. induction l as [|x l IH]; cbn [map]; rewrite ?sumQ_cons; [unfold sumQ; cbn; qlra|]. rewrite IH. ring. Qed.
Lemma sumQ_map_scale {A} (c : Qc) (f : A -> Qc) l : sumQ (map (fun x => c * f x)%Qc l) = (c * sumQ (map f l))%Qc.
Proof. induction l as [|x l IH]; cbn [map]; rewrite ?sumQ_cons; [unfold sumQ; cbn [fold_right]; change (ofZ 0) with (0%Qc); ring|]. rewrite IH. ring. Qed.
Lemma sumQ_map_ext {A} (f g : A -> Qc) l : (forall x, In x l -> f x = g x) -> sumQ (map f l) = sumQ (map g l).
Proof. intros H. f_equal. now apply map_ext_in. Qed.
Lemma sumQ_nonneg l : Forall (fun x => (0 <= x)%Qc) l -> (0 <= sumQ l)%Qc.
Proof. induction 1; rewrite ?sumQ_cons; [apply Qcle_refl|]. qlra. Qed.
Lemma sumQ_zero l : Forall (fun x => (0 <= x)%Qc) l -> (sumQ l <= 0)%Qc -> Forall (fun x => x = 0%Qc) l.
Proof.
  induction 1 as [|x l H F IH]; intros S; constructor; rewrite sumQ_cons in S; assert (N := sumQ_nonneg l F).
  - qlra.
  - apply IH. qlra.
Qed.

(** Concrete evaluation: compare the underlying fractions. *)
Lemma list_this_eq (u v : list Qc) : map this u = map this v -> u = v.
Proof.
  revert v. induction u as [|x u IH]; intros [|y v] H; try discriminate; auto. cbn [map] in H. injection H as H1 H2.
  f_equal; [now apply Qc_decomp|auto].
Qed.
Definition show_nda (r : res (nda Qc)) : res (list nat * list Q) := match r with Ok a => Ok (shape a, map this (data a)) | Raise e => Raise e end.
Lemma show_nda_eq r r' : show_nda r = show_nda r' -> r = r'.
Proof.
  destruct r as [[s d]|e], r' as [[s' d']|e']; cbn [show_nda shape data]; intros H; try congruence.
  injection H as -> H. apply list_this_eq in H. now subst.
Qed.
Definition show_list (r : res (list Qc)) : res (list Q) := match r with Ok a => Ok (map this a) | Raise e => Raise e end.
Lemma show_list_eq r r' : show_list r = show_list r' -> r = r'.
Proof. destruct r, r'; cbn [show_list]; intros H; try congruence. injection H as H. apply list_this_eq in H. now subst. Qed.
Ltac qcompute := first [apply show_nda_eq | apply show_list_eq | apply list_this_eq | apply Qc_decomp]; vm_compute; reflexivity.
