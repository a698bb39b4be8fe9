(** Cubic splines through equidistant samples: existence, uniqueness, bounds. *)
From Coq Require Import Reals String Lra Lia Psatz.
From Verif Require Import Py B_list M_channel M_jitter S_jitter.
Import List.
Open Scope R_scope.

Lemma q_bound i : 0 <= elim_q i <= / 3.
Proof.
  induction i as [|i IH]; cbn [elim_q]; [lra|]. split.
  - apply Rlt_le, Rinv_0_lt_compat. lra.
  - apply Rinv_le_contravar; lra.
Qed.
Lemma q_step i : elim_q (S i) * (4 - elim_q i) = 1.
Proof. cbn [elim_q]. pose proof (q_bound i). field. lra. Qed.

(** The second derivatives of a spline: [m i] times h^-2 at sample [i]. *)
Definition moments (y : list R) (m : nat -> R) : Prop :=
  (forall i, (i + 2 < length y)%nat -> m i + 4 * m (i + 1)%nat + m (i + 2)%nat = 6 * second_difference y (i + 1)) /\
  m 0%nat + m 2%nat = 2 * m 1%nat /\
  m (length y - 1)%nat + m (length y - 3)%nat = 2 * m (length y - 2)%nat.

Section Fix.
Variable (y : list R).
Hypothesis (L : (4 <= length y)%nat).
Let n := length y.
Let inner := fun i => moment_back y (n - 2 - i).
Lemma inner_last : inner (n - 2) = second_difference y (n - 2).
Proof. unfold inner. rewrite Nat.sub_diag. reflexivity. Qed.
Lemma inner_step i : (i + 4 <= n)%nat -> inner (i + 1) = elim_p y i - elim_q i * inner (i + 2).
Proof.
  intros H. unfold inner. replace (n - 2 - (i + 1))%nat with (S (n - 2 - (i + 2))) by lia. cbn [moment_back]. fold n.
  replace (n - 4 - (n - 2 - (i + 2)))%nat with i by lia. reflexivity.
Qed.
Lemma inner_first : inner 1 = second_difference y 1.
Proof. pose proof (inner_step 0 ltac:(unfold n; lia)) as X. cbn [Nat.add elim_p elim_q] in X. rewrite X. ring. Qed.
Lemma inner_system i : (i + 5 <= n)%nat -> inner (i + 1) + 4 * inner (i + 2) + inner (i + 3) = 6 * second_difference y (i + 2).
Proof.
  intros H. rewrite (inner_step i) by lia.
  pose proof (inner_step (S i) ltac:(lia)) as E. replace (S i + 1)%nat with (i + 2)%nat in E by lia. replace (S i + 2)%nat with (i + 3)%nat in E by lia.
  cbn [elim_p] in E. pose proof (q_step i) as Q.
  assert (X : inner (i + 2) * (4 - elim_q i) = (6 * second_difference y (i + 2) - elim_p y i) - inner (i + 3)).
  { rewrite E. replace (((6 * second_difference y (i + 2) - elim_p y i) * elim_q (S i) - elim_q (S i) * inner (i + 3)) * (4 - elim_q i))
      with (((6 * second_difference y (i + 2) - elim_p y i) - inner (i + 3)) * (elim_q (S i) * (4 - elim_q i))) by ring. rewrite Q. ring. }
  lra.
Qed.
Lemma moment_inner i : (1 <= i)%nat -> (i + 2 <= n)%nat -> moment y i = inner i.
Proof. intros H1 H2. unfold moment. fold n. replace (i =? 0)%nat with false by (symmetry; apply Nat.eqb_neq; lia). replace (i =? n - 1)%nat with false by (symmetry; apply Nat.eqb_neq; lia). reflexivity. Qed.
Lemma moment_0 : moment y 0 = 2 * inner 1 - inner 2.
Proof. reflexivity. Qed.
Lemma moment_last : moment y (n - 1) = 2 * inner (n - 2) - inner (n - 3).
Proof. unfold moment. fold n. rewrite Nat.eqb_refl. replace (n - 1 =? 0)%nat with false by (symmetry; apply Nat.eqb_neq; unfold n; lia). reflexivity. Qed.

Lemma moment_system : moments y (moment y).
Proof.
  split; [|split].
  - fold n. intros i Hi. destruct i as [|i].
    + cbn [Nat.add]. rewrite moment_0, (moment_inner 1), (moment_inner 2) by (unfold n; lia). rewrite <- inner_first. ring.
    + destruct (Nat.eq_dec (S i + 3) n) as [E|E].
      * replace (S i + 2)%nat with (n - 1)%nat by lia. rewrite moment_last. rewrite (moment_inner (S i)), (moment_inner (S i + 1)) by lia.
        replace (n - 3)%nat with (S i) by lia. replace (S i + 1)%nat with (n - 2)%nat by lia. rewrite <- inner_last. ring.
      * rewrite (moment_inner (S i)), (moment_inner (S i + 1)), (moment_inner (S i + 2)) by lia.
        pose proof (inner_system i ltac:(lia)) as X. replace (S i) with (i + 1)%nat by lia. replace (i + 1 + 1)%nat with (i + 2)%nat by lia. replace (i + 1 + 2)%nat with (i + 3)%nat by lia. exact X.
  - rewrite moment_0, (moment_inner 1), (moment_inner 2) by (unfold n; lia). ring.
  - fold n. rewrite moment_last, (moment_inner (n - 3)), (moment_inner (n - 2)) by (unfold n; lia). ring.
Qed.

Lemma moment_unique m : moments y m -> forall i, (i < n)%nat -> m i = moment y i.
Proof.
  intros (S1 & S2 & S3). fold n in S1, S3.
  assert (F1 : m 1%nat = second_difference y 1). { pose proof (S1 0%nat ltac:(unfold n; lia)) as X. cbn [Nat.add] in X. lra. }
  assert (FN : m (n - 2)%nat = second_difference y (n - 2)).
  { pose proof (S1 (n - 3)%nat ltac:(unfold n; lia)) as X. replace (n - 3 + 1)%nat with (n - 2)%nat in X by (unfold n; lia). replace (n - 3 + 2)%nat with (n - 1)%nat in X by (unfold n; lia). lra. }
  assert (F : forall j, (j + 4 <= n)%nat -> m (j + 1)%nat = elim_p y j - elim_q j * m (j + 2)%nat).
  { induction j as [|j IH]; intros Hj.
    - cbn [Nat.add elim_p elim_q]. lra.
    - pose proof (S1 (j + 1)%nat ltac:(lia)) as X. replace (j + 1 + 1)%nat with (j + 2)%nat in X by lia. replace (j + 1 + 2)%nat with (j + 3)%nat in X by lia.
      rewrite IH in X by lia. replace (S j + 1)%nat with (j + 2)%nat by lia. replace (S j + 2)%nat with (j + 3)%nat by lia. cbn [elim_p]. pose proof (q_step j) as Q.
      assert (Y : m (j + 2)%nat * (4 - elim_q j) = 6 * second_difference y (j + 2) - elim_p y j - m (j + 3)%nat) by lra.
      replace (m (j + 2)%nat) with (m (j + 2)%nat * (elim_q (S j) * (4 - elim_q j))) by (rewrite Q; ring).
      replace (m (j + 2)%nat * (elim_q (S j) * (4 - elim_q j))) with (elim_q (S j) * (m (j + 2)%nat * (4 - elim_q j))) by ring. rewrite Y. ring. }
  assert (I : forall k, (k + 3 <= n)%nat -> m (n - 2 - k)%nat = inner (n - 2 - k)).
  { induction k as [|k IH]; intros Hk.
    - rewrite Nat.sub_0_r. rewrite inner_last. exact FN.
    - pose proof (F (n - 4 - k)%nat ltac:(lia)) as X. pose proof (inner_step (n - 4 - k) ltac:(lia)) as Y.
      replace (n - 4 - k + 1)%nat with (n - 2 - S k)%nat in X, Y by lia. replace (n - 4 - k + 2)%nat with (n - 2 - k)%nat in X, Y by lia.
      rewrite X, Y, IH by lia. reflexivity. }
  assert (J : forall i, (1 <= i)%nat -> (i + 2 <= n)%nat -> m i = inner i).
  { intros i H1 H2. specialize (I (n - 2 - i)%nat ltac:(lia)). replace (n - 2 - (n - 2 - i))%nat with i in I by lia. exact I. }
  intros i Hi. destruct (Nat.eq_dec i 0) as [->|N0].
  - rewrite moment_0. rewrite <- (J 1%nat), <- (J 2%nat) by (unfold n; lia). lra.
  - destruct (Nat.eq_dec i (n - 1)) as [->|N1].
    + rewrite moment_last. rewrite <- (J (n - 2)%nat), <- (J (n - 3)%nat) by (unfold n; lia). lra.
    + rewrite moment_inner by lia. apply J; lia.
Qed.
End Fix.

(** * The function *)
Lemma piece_left y i : spline_piece y i 0 = nth i y 0.
Proof. unfold spline_piece. field. Qed.
Lemma piece_right y i : spline_piece y i 1 = nth (i + 1) y 0.
Proof. unfold spline_piece. field. Qed.
Lemma interp_at h y x i : 0 < h -> (i + 1 < length y)%nat -> (i = 0%nat \/ INR i * h <= x) -> ((i + 2 = length y)%nat \/ x <= INR (i + 1) * h) ->
  cubic_interp h y x = spline_piece y i (x / h - INR i).
Proof.
  intros Hh Hi HL HR. unfold cubic_interp. set (z := x / h). assert (Ex : x = z * h) by (unfold z; field; lra).
  assert (HL' : i = 0%nat \/ INR i <= z) by (destruct HL as [|HL]; auto; right; apply Rmult_le_reg_r with h; lra).
  assert (HR' : (i + 2 = length y)%nat \/ z <= INR (i + 1)) by (destruct HR as [|HR]; auto; right; apply Rmult_le_reg_r with h; lra). clear HL HR.
  pose proof (base_Int_part z) as [F1 F2]. set (f := Int_part z) in *.
  assert (L : (i = 0)%nat \/ (Z.of_nat i <= f)%Z).
  { destruct HL' as [|H]; auto. right. assert (IZR (Z.of_nat i) < IZR (f + 1)) by (rewrite plus_IZR, <- INR_IZR_INZ; lra). apply lt_IZR in H0. lia. }
  assert (R : (i + 2 = length y)%nat \/ (f <= Z.of_nat i)%Z \/ (z = INR (i + 1) /\ f = Z.of_nat (i + 1))).
  { destruct HR' as [|H]; auto. right. assert (X : IZR f <= IZR (Z.of_nat (i + 1))) by (rewrite <- INR_IZR_INZ; lra). apply le_IZR in X.
    destruct (Z.eq_dec f (Z.of_nat (i + 1))) as [E|E]; [right|left; lia]. split; auto. rewrite E, <- INR_IZR_INZ in F1. lra. }
  destruct R as [R|[R|[R1 R2]]].
  - replace (Z.to_nat (Z.min (Z.of_nat (length y) - 2) f)) with i by lia. reflexivity.
  - replace (Z.to_nat (Z.min (Z.of_nat (length y) - 2) f)) with i by lia. reflexivity.
  - destruct (Nat.eq_dec (i + 2) (length y)) as [E|E].
    + replace (Z.to_nat (Z.min (Z.of_nat (length y) - 2) f)) with i by lia. reflexivity.
    + replace (Z.to_nat (Z.min (Z.of_nat (length y) - 2) f)) with (i + 1)%nat by lia. rewrite R1, Rminus_diag_eq by reflexivity. rewrite piece_left.
      replace (INR (i + 1) - INR i) with 1 by (rewrite plus_INR; cbn; ring). rewrite piece_right. reflexivity.
Qed.
Definition piece_cubic (h : R) (y : list R) (i : nat) : cubic :=
  mk_cubic (nth i y 0) ((nth (i + 1) y 0 - nth i y 0) / h - (2 * moment y i + moment y (i + 1)) / (6 * h)) (moment y i / (2 * h ^ 2)) ((moment y (i + 1) - moment y i) / (6 * h ^ 3)).
Lemma piece_value h y i v : h <> 0 -> spline_piece y i (v / h) = value (piece_cubic h y i) v.
Proof. intros H. unfold spline_piece, value, piece_cubic. cbn [ca cb cc cd]. field. auto. Qed.
Lemma INR_h_step i h : INR (i + 1) * h = INR i * h + h.
Proof. rewrite plus_INR. cbn. ring. Qed.
Lemma interp_node h y k : 0 < h -> (4 <= length y)%nat -> (k < length y)%nat -> cubic_interp h y (INR k * h) = nth k y 0.
Proof.
  intros Hh L Hk. destruct (Nat.eq_dec (k + 1) (length y)) as [E|E].
  - rewrite (interp_at h y _ (k - 1)); auto; [|lia| |left; lia].
    + replace (INR k * h / h - INR (k - 1)) with 1 by (rewrite minus_INR by lia; cbn; field; lra). rewrite piece_right. f_equal. lia.
    + right. rewrite minus_INR by lia. cbn. nra.
  - rewrite (interp_at h y _ k); auto; [|lia|right; lra|right; rewrite INR_h_step; lra].
    replace (INR k * h / h - INR k) with 0 by (field; lra). apply piece_left.
Qed.
Lemma cubic_is_spline h y : 0 < h -> (4 <= length y)%nat -> is_spline h y (cubic_interp h y).
Proof.
  intros Hh L. split; [intros; apply interp_node; auto|]. exists (piece_cubic h y).
  destruct (moment_system y L) as (S1 & S2 & S3). assert (Hn : h <> 0) by lra. split; [|split; [|split]].
  - intros i x Hi HL HR. rewrite (interp_at h y x i) by auto. rewrite <- piece_value by auto. f_equal. field. auto.
  - intros i Hi. specialize (S1 i Hi). unfold second_difference in S1. replace (i + 1 - 1)%nat with i in S1 by lia.
    unfold slope, bend, piece_cubic. cbn [ca cb cc cd]. replace (i + 1 + 1)%nat with (i + 2)%nat in * by lia. split.
    + replace (nth (i + 2) y 0) with ((moment y i + 4 * moment y (i + 1) + moment y (i + 2)) / 6 - nth i y 0 + 2 * nth (i + 1) y 0) by lra. field. auto.
    + field. auto.
  - unfold piece_cubic. cbn [cd Nat.add]. replace (moment y 2) with (2 * moment y 1 - moment y 0) by lra. field. auto.
  - unfold piece_cubic. cbn [cd]. replace (length y - 3 + 1)%nat with (length y - 2)%nat by lia. replace (length y - 2 + 1)%nat with (length y - 1)%nat by lia.
    replace (moment y (length y - 1)) with (2 * moment y (length y - 2) - moment y (length y - 3)) by lra. field. auto.
Qed.
Lemma spline_unique h y f : 0 < h -> (4 <= length y)%nat -> is_spline h y f -> forall x, f x = cubic_interp h y x.
Proof.
  intros Hh L (N & p & P & D & K1 & K2). set (n := length y) in *. assert (Hn : h <> 0) by lra.
  assert (V0 : forall i, (i + 1 < n)%nat -> ca (p i) = nth i y 0).
  { intros i Hi. rewrite <- N by lia. rewrite (P i) by (first [lia | right; lra | right; rewrite INR_h_step; lra]). unfold value. ring. }
  assert (V1 : forall i, (i + 1 < n)%nat -> value (p i) h = nth (i + 1) y 0).
  { intros i Hi. rewrite <- N by lia. rewrite (P i) by (first [lia | right; lra | right; rewrite INR_h_step; lra]). f_equal. rewrite INR_h_step. ring. }
  set (m := fun i => if (i + 1 <? n)%nat then h ^ 2 * bend (p i) 0 else h ^ 2 * bend (p (i - 1)%nat) h).
  assert (M0 : forall i, (i + 1 < n)%nat -> m i = h ^ 2 * bend (p i) 0).
  { intros i Hi. unfold m. replace (i + 1 <? n)%nat with true by (symmetry; apply Nat.ltb_lt; lia). reflexivity. }
  assert (M1 : forall i, (i + 1 < n)%nat -> m (i + 1)%nat = h ^ 2 * bend (p i) h).
  { intros i Hi. unfold m. destruct (Nat.ltb_spec (i + 1 + 1) n) as [H|H].
    - destruct (D i ltac:(lia)) as [_ E]. rewrite E. reflexivity.
    - replace (i + 1 - 1)%nat with i by lia. reflexivity. }
  assert (MS : moments y m).
  { split; [|split]; fold n.
    - intros i Hi. destruct (D i Hi) as [E _]. unfold second_difference. replace (i + 1 - 1)%nat with i by lia.
      rewrite (M0 i), (M1 i) by lia. replace (i + 2)%nat with (i + 1 + 1)%nat by lia. rewrite (M1 (i + 1)%nat) by lia.
      rewrite <- (V0 i), <- (V1 i), <- (V1 (i + 1)%nat) by lia. pose proof (V0 (i + 1)%nat ltac:(lia)) as W. rewrite <- (V1 i) in W by lia.
      destruct (D i Hi) as [_ B]. revert E W B. unfold value, slope, bend. destruct (p i) as [a b c d], (p (i + 1)%nat) as [a' b' c' d']. cbn [ca cb cc cd].
      intros E W B. ring_simplify in E. ring_simplify in B. subst a'. 
      assert (E' : b' = b + 2 * c * h + 3 * d * h ^ 2) by lra. assert (B' : c' = c + 3 * d * h) by lra. subst b' c'. ring.
    - rewrite (M0 0%nat) by lia. pose proof (M1 0%nat ltac:(lia)) as A1. pose proof (M1 1%nat ltac:(lia)) as A2. cbn [Nat.add] in A1, A2. rewrite A1, A2.
      destruct (D 0%nat ltac:(lia)) as [_ B]. cbn [Nat.add] in B. revert B K1. unfold bend. intros. ring_simplify in B. rewrite K1 in *. assert (E : cc (p 1%nat) = cc (p 0%nat) + 3 * cd (p 1%nat) * h) by lra. rewrite E. ring.
    - pose proof (M0 (n - 3)%nat ltac:(lia)) as A1. pose proof (M1 (n - 3)%nat ltac:(lia)) as A2. pose proof (M1 (n - 2)%nat ltac:(lia)) as A3.
      replace (n - 3 + 1)%nat with (n - 2)%nat in A2 by lia. replace (n - 2 + 1)%nat with (n - 1)%nat in A3 by lia. rewrite A1, A2, A3.
      destruct (D (n - 3)%nat ltac:(lia)) as [_ B]. replace (n - 3 + 1)%nat with (n - 2)%nat in B by lia. revert B K2. unfold bend. intros. ring_simplify in B. rewrite K2 in *.
      assert (E : cc (p (n - 2)%nat) = cc (p (n - 3)%nat) + 3 * cd (p (n - 2)%nat) * h) by lra. rewrite E. ring. }
  pose proof (moment_unique y L m MS) as U. fold n in U.
  assert (G : forall i x, (i + 1 < n)%nat -> (i = 0%nat \/ INR i * h <= x) -> ((i + 2 = n)%nat \/ x <= INR (i + 1) * h) -> f x = cubic_interp h y x).
  { intros i x Hi HL HR. rewrite (P i) by auto. rewrite (interp_at h y x i) by auto. replace (x / h - INR i) with ((x - INR i * h) / h) by (field; auto).
    rewrite piece_value by auto. unfold value, piece_cubic. cbn [ca cb cc cd]. rewrite <- (U i), <- (U (i + 1)%nat) by lia. rewrite (M0 i), (M1 i), <- (V0 i), <- (V1 i) by lia.
    unfold bend, value. field. auto. }
  intros x.
  destruct (Rle_dec x (INR 1 * h)) as [H|H]; [apply (G 0%nat); auto; lia|].
  destruct (Rle_dec (INR (n - 2) * h) x) as [H'|H']; [apply (G (n - 2)%nat); auto; try lia; left; lia|].
  pose proof (base_Int_part (x / h)) as [F1 F2]. set (z := Int_part (x / h)) in *.
  assert (X1 : 1 < x / h). { apply Rmult_lt_reg_r with h; auto. replace (x / h * h) with x by (field; auto). cbn in H. lra. }
  assert (X2 : x / h < INR (n - 2)). { apply Rmult_lt_reg_r with h; auto. replace (x / h * h) with x by (field; auto). lra. }
  assert (Z0 : (0 < z)%Z) by (apply lt_IZR; lra). assert (Z1 : (z < Z.of_nat (n - 2))%Z) by (apply lt_IZR; rewrite <- INR_IZR_INZ; lra).
  assert (ZI : INR (Z.to_nat z) = IZR z) by (rewrite INR_IZR_INZ, Z2Nat.id by lia; reflexivity).
  apply (G (Z.to_nat z)); try lia.
  - right. rewrite ZI. replace x with (x / h * h) at 1 by (field; auto). apply Rmult_le_compat_r; lra.
  - right. rewrite plus_INR, ZI. cbn. replace x with (x / h * h) at 1 by (field; auto). apply Rmult_le_compat_r; lra.
Qed.

(** * Bounds *)
Lemma Rabs_le_iff x b : Rabs x <= b <-> - b <= x <= b.
Proof. split; [intros H; unfold Rabs in H; destruct (Rcase_abs x); lra|apply Rabs_le]. Qed.
Section Bound.
Variable (y : list R) (Y : R).
Hypothesis (L : (4 <= length y)%nat) (B : forall k, Rabs (nth k y 0) <= Y).
Lemma second_difference_bound i : Rabs (second_difference y i) <= 4 * Y.
Proof. unfold second_difference. pose proof (B (i - 1)). pose proof (B i). pose proof (B (i + 1)). apply Rabs_le_iff. apply Rabs_le_iff in H, H0, H1. lra. Qed.
Lemma Y_nonneg : 0 <= Y.
Proof. pose proof (B 0). pose proof (Rabs_pos (nth 0 y 0)). lra. Qed.
Lemma elim_bound i : Rabs (elim_p y i) + elim_q i * (12 * Y) <= 12 * Y.
Proof.
  pose proof Y_nonneg as P. induction i as [|i IH].
  - cbn [elim_p elim_q]. pose proof (second_difference_bound 1). lra.
  - cbn [elim_p]. pose proof (q_bound i) as Q. pose proof (q_bound (S i)) as Q'. pose proof (q_step i) as E. pose proof (second_difference_bound (i + 2)) as D.
    rewrite Rabs_mult, (Rabs_right (elim_q (S i))) by lra.
    assert (X : Rabs (6 * second_difference y (i + 2) - elim_p y i) <= 24 * Y + Rabs (elim_p y i)).
    { apply Rabs_le_iff. apply Rabs_le_iff in D. pose proof (Rle_abs (elim_p y i)). pose proof (Rle_abs (- elim_p y i)). rewrite Rabs_Ropp in *. lra. }
    apply Rle_trans with (elim_q (S i) * (24 * Y + Rabs (elim_p y i) + 12 * Y)); [nra|].
    apply Rle_trans with (elim_q (S i) * (12 * Y * (4 - elim_q i))); [apply Rmult_le_compat_l; lra|].
    replace (elim_q (S i) * (12 * Y * (4 - elim_q i))) with (12 * Y * (elim_q (S i) * (4 - elim_q i))) by ring. rewrite E. lra.
Qed.
Lemma moment_back_bound k : Rabs (moment_back y k) <= 12 * Y.
Proof.
  pose proof Y_nonneg as P. induction k as [|k IH]; cbn [moment_back].
  - pose proof (second_difference_bound (length y - 2)). lra.
  - pose proof (elim_bound (length y - 4 - k)) as E. pose proof (q_bound (length y - 4 - k)) as Q.
    unfold Rminus. eapply Rle_trans; [apply Rabs_triang|]. rewrite Rabs_Ropp, Rabs_mult, (Rabs_right (elim_q _)) by lra. nra.
Qed.
Lemma moment_bound i : (i < length y)%nat -> Rabs (moment y i) <= 20 * Y.
Proof.
  intros Hi. pose proof Y_nonneg as P.
  destruct (Nat.eq_dec i 0) as [->|N0]; [|destruct (Nat.eq_dec i (length y - 1)) as [->|N1]].
  - rewrite moment_0. rewrite (inner_first y L). pose proof (second_difference_bound 1) as D. pose proof (moment_back_bound (length y - 2 - 2)) as M.
    apply Rabs_le_iff. apply Rabs_le_iff in D, M. lra.
  - rewrite (moment_last y L). rewrite (inner_last y). pose proof (second_difference_bound (length y - 2)) as D. pose proof (moment_back_bound (length y - 2 - (length y - 3))) as M.
    apply Rabs_le_iff. apply Rabs_le_iff in D, M. lra.
  - rewrite moment_inner by lia. pose proof (moment_back_bound (length y - 2 - i)). lra.
Qed.
Lemma piece_bound i u : (i + 1 < length y)%nat -> 0 <= u <= 1 -> Rabs (spline_piece y i u) <= 7 / 2 * Y.
Proof.
  intros Hi Hu. pose proof (B i) as B0. pose proof (B (i + 1)%nat) as B1. pose proof (moment_bound i ltac:(lia)) as M0. pose proof (moment_bound (i + 1)%nat ltac:(lia)) as M1.
  unfold spline_piece. set (a := nth i y 0) in *. set (b := nth (i + 1) y 0) in *. set (m := moment y i) in *. set (m' := moment y (i + 1)) in *.
  pose proof Y_nonneg as P. apply Rabs_le_iff in B0, B1, M0, M1.
  set (g := (1 - u) - (1 - u) ^ 3). set (g' := u - u ^ 3). assert (G : 0 <= g) by (replace g with ((1 - u) * u * (2 - u)) by (unfold g; ring); apply Rmult_le_pos; [apply Rmult_le_pos|]; lra). assert (G' : 0 <= g') by (replace g' with (u * (1 - u) * (1 + u)) by (unfold g'; ring); apply Rmult_le_pos; [apply Rmult_le_pos|]; lra).
  assert (GG : g + g' <= 3 / 4). { unfold g, g'. replace (1 - u - (1 - u) ^ 3 + (u - u ^ 3)) with (3 * (u * (1 - u))) by ring. pose proof (Rle_0_sqr (u - / 2)) as S. unfold Rsqr in S. lra. }
  replace ((1 - u) * a + u * b + ((1 - u) ^ 3 - (1 - u)) / 6 * m + (u ^ 3 - u) / 6 * m') with ((1 - u) * a + u * b - g / 6 * m - g' / 6 * m') by (unfold g, g'; field).
  assert (T1 : - ((1 - u) * Y) <= (1 - u) * a <= (1 - u) * Y) by (split; nra). assert (T2 : - (u * Y) <= u * b <= u * Y) by (split; nra).
  assert (T3 : - (g * (20 * Y)) <= g * m <= g * (20 * Y)) by (split; nra). assert (T4 : - (g' * (20 * Y)) <= g' * m' <= g' * (20 * Y)) by (split; nra).
  assert (T5 : (g + g') * (20 * Y) <= 3 / 4 * (20 * Y)) by (apply Rmult_le_compat_r; lra).
  apply Rabs_le_iff. lra.
Qed.
Lemma piece_lip i u v : (i + 1 < length y)%nat -> 0 <= u <= 1 -> 0 <= v <= 1 -> Rabs (spline_piece y i u - spline_piece y i v) <= 12 * Y * Rabs (u - v).
Proof.
  intros Hi Hu Hv. pose proof (B i) as B0. pose proof (B (i + 1)%nat) as B1. pose proof (moment_bound i ltac:(lia)) as M0. pose proof (moment_bound (i + 1)%nat ltac:(lia)) as M1.
  unfold spline_piece. set (a := nth i y 0) in *. set (b := nth (i + 1) y 0) in *. set (m := moment y i) in *. set (m' := moment y (i + 1)) in *. pose proof Y_nonneg as P.
  set (q := u ^ 2 + u * v + v ^ 2 - 1). set (r := (1 - u) ^ 2 + (1 - u) * (1 - v) + (1 - v) ^ 2 - 1).
  match goal with |- Rabs ?e <= _ => replace e with ((u - v) * ((b - a) - r / 6 * m + q / 6 * m')) by (unfold q, r; field) end.
  rewrite Rabs_mult, Rmult_comm. apply Rmult_le_compat_r; [apply Rabs_pos|].
  apply Rabs_le_iff in B0, B1, M0, M1.
  assert (QR : Rabs q + Rabs r <= 3).
  { assert (S1 : q + r <= 3) by (unfold q, r; nra). assert (S2 : - (q + r) <= 3) by (unfold q, r; nra). assert (S3 : q - r <= 3) by (unfold q, r; nra). assert (S4 : r - q <= 3) by (unfold q, r; nra).
    unfold Rabs. destruct (Rcase_abs q), (Rcase_abs r); lra. }
  assert (T3 : Rabs (r * m) <= Rabs r * (20 * Y)) by (rewrite Rabs_mult; apply Rmult_le_compat_l; [apply Rabs_pos|apply Rabs_le_iff; lra]).
  assert (T4 : Rabs (q * m') <= Rabs q * (20 * Y)) by (rewrite Rabs_mult; apply Rmult_le_compat_l; [apply Rabs_pos|apply Rabs_le_iff; lra]).
  apply Rabs_le_iff in T3, T4. assert (T5 : (Rabs q + Rabs r) * (20 * Y) <= 3 * (20 * Y)) by (apply Rmult_le_compat_r; lra).
  apply Rabs_le_iff. lra.
Qed.
Variable (h : R).
Hypothesis (Hh : 0 < h).
Lemma locate x : 0 <= x <= INR (length y - 1) * h -> exists i, (i + 1 < length y)%nat /\ INR i * h <= x <= INR (i + 1) * h.
Proof.
  intros [X0 X1]. destruct (Rle_dec (INR (length y - 2) * h) x) as [H|H].
  - exists (length y - 2)%nat. replace (length y - 2 + 1)%nat with (length y - 1)%nat by lia. split; [lia|lra].
  - pose proof (base_Int_part (x / h)) as [F1 F2]. set (z := Int_part (x / h)) in *. assert (E : x = x / h * h) by (field; lra).
    assert (U0 : 0 <= x / h) by (apply Rmult_le_reg_r with h; lra). assert (U1 : x / h < INR (length y - 2)) by (apply Rmult_lt_reg_r with h; lra).
    assert (Z0 : (-1 < z)%Z) by (apply lt_IZR; lra). assert (Z1 : (z < Z.of_nat (length y - 2))%Z) by (apply lt_IZR; rewrite <- INR_IZR_INZ; lra).
    assert (ZI : INR (Z.to_nat z) = IZR z) by (rewrite INR_IZR_INZ, Z2Nat.id by lia; reflexivity).
    exists (Z.to_nat z). split; [lia|]. rewrite plus_INR, ZI. change (INR 1) with 1. rewrite E at 1 2. split; apply Rmult_le_compat_r; lra.
Qed.
Lemma in_piece x i : (i + 1 < length y)%nat -> INR i * h <= x <= INR (i + 1) * h -> cubic_interp h y x = spline_piece y i (x / h - INR i) /\ 0 <= x / h - INR i <= 1.
Proof.
  intros Hi [X0 X1]. split; [apply interp_at; auto|]. rewrite plus_INR in X1. change (INR 1) with 1 in X1.
  split; apply Rmult_le_reg_r with h; auto; replace ((x / h - INR i) * h) with (x - INR i * h) by (field; lra); lra.
Qed.
Lemma interp_bound x : 0 <= x <= INR (length y - 1) * h -> Rabs (cubic_interp h y x) <= 7 / 2 * Y.
Proof. intros X. destruct (locate x X) as (i & Hi & HX). destruct (in_piece x i Hi HX) as [-> U]. apply piece_bound; auto. Qed.
Lemma lip_piece x x' i : (i + 1 < length y)%nat -> INR i * h <= x <= INR (i + 1) * h -> INR i * h <= x' <= INR (i + 1) * h -> Rabs (cubic_interp h y x - cubic_interp h y x') <= 12 * Y / h * Rabs (x - x').
Proof.
  intros Hi X X'. destruct (in_piece x i Hi X) as [-> U]. destruct (in_piece x' i Hi X') as [-> U']. eapply Rle_trans; [apply piece_lip; auto|].
  replace (x / h - INR i - (x' / h - INR i)) with ((x - x') / h) by (field; lra). unfold Rdiv. rewrite Rabs_mult, (Rabs_right (/ h)) by (apply Rle_ge, Rlt_le, Rinv_0_lt_compat; auto). lra.
Qed.
Lemma lip_nodes k : forall j, (j + k < length y)%nat -> Rabs (cubic_interp h y (INR (j + k) * h) - cubic_interp h y (INR j * h)) <= 12 * Y / h * (INR k * h).
Proof.
  induction k as [|k IH]; intros j Hj.
  - rewrite Nat.add_0_r, Rminus_diag_eq, Rabs_R0 by reflexivity. cbn. lra.
  - specialize (IH j ltac:(lia)). pose proof (lip_piece (INR (j + S k) * h) (INR (j + k) * h) (j + k) ltac:(lia)) as P.
    replace (j + S k)%nat with (j + k + 1)%nat in * by lia. rewrite INR_h_step in P |- *. replace (INR (j + k) * h + h - INR (j + k) * h) with h in P by ring. rewrite (Rabs_right h) in P by lra.
    specialize (P ltac:(lra) ltac:(lra)). rewrite S_INR. replace (12 * Y / h * ((INR k + 1) * h)) with (12 * Y / h * h + 12 * Y / h * (INR k * h)) by ring.
    match goal with |- Rabs (?p - ?q) <= _ => replace (p - q) with ((p - cubic_interp h y (INR (j + k) * h)) + (cubic_interp h y (INR (j + k) * h) - q)) by ring end.
    eapply Rle_trans; [apply Rabs_triang|]. lra.
Qed.
Lemma interp_lip_lt x x' : 0 <= x -> x <= x' -> x' <= INR (length y - 1) * h -> Rabs (cubic_interp h y x - cubic_interp h y x') <= 12 * Y / h * (x' - x).
Proof.
  intros X XX X'. destruct (locate x ltac:(lra)) as (i & Hi & HX). destruct (locate x' ltac:(lra)) as (j & Hj & HX').
  destruct (Rle_dec x' (INR (i + 1) * h)) as [H|H].
  - pose proof (lip_piece x x' i Hi HX ltac:(lra)) as P. rewrite (Rabs_minus_sym x x'), (Rabs_right (x' - x)) in P by lra. exact P.
  - assert (IJ : (i + 1 <= j)%nat).
    { destruct (Nat.le_gt_cases (i + 1) j) as [K|K]; auto. exfalso. assert (INR j <= INR i) by (apply le_INR; lia). assert (INR j * h <= INR i * h) by (apply Rmult_le_compat_r; lra). rewrite INR_h_step in *. lra. }
    pose proof (lip_piece x (INR (i + 1) * h) i Hi HX ltac:(rewrite INR_h_step in *; lra)) as P1.
    pose proof (lip_piece (INR j * h) x' j Hj ltac:(rewrite INR_h_step in *; lra) HX') as P3.
    pose proof (lip_nodes (j - (i + 1)) (i + 1) ltac:(lia)) as P2. replace (i + 1 + (j - (i + 1)))%nat with j in P2 by lia. rewrite minus_INR in P2 by auto.
    rewrite (Rabs_minus_sym x), (Rabs_right (_ - x)) in P1 by lra. rewrite (Rabs_minus_sym (INR j * h)), (Rabs_right (x' - _)) in P3 by lra. rewrite (Rabs_minus_sym (cubic_interp _ _ (INR j * h))) in P2.
    match goal with |- Rabs (?p - ?q) <= _ => replace (p - q) with ((p - cubic_interp h y (INR (i + 1) * h)) + ((cubic_interp h y (INR (i + 1) * h) - cubic_interp h y (INR j * h)) + (cubic_interp h y (INR j * h) - q))) by ring end.
    eapply Rle_trans; [apply Rabs_triang|]. eapply Rle_trans; [apply Rplus_le_compat_l; apply Rabs_triang|].
    replace (12 * Y / h * (x' - x)) with (12 * Y / h * (INR (i + 1) * h - x) + (12 * Y / h * ((INR j - INR (i + 1)) * h) + 12 * Y / h * (x' - INR j * h))) by ring. lra.
Qed.
Lemma interp_lip x x' : 0 <= x <= INR (length y - 1) * h -> 0 <= x' <= INR (length y - 1) * h -> Rabs (cubic_interp h y x - cubic_interp h y x') <= 12 * Y / h * Rabs (x - x').
Proof.
  intros X X'. destruct (Rle_dec x x') as [H|H].
  - rewrite (Rabs_minus_sym x), (Rabs_right (x' - x)) by lra. apply interp_lip_lt; lra.
  - rewrite Rabs_minus_sym, (Rabs_right (x - x')) by lra. apply interp_lip_lt; lra.
Qed.
End Bound.
