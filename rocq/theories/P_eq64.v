(** Proofs about dot products and the decision feedback equaliser in doubles (C76). *)
From Coq Require Import ZArith Reals Lra Lia Psatz Permutation.
From Flocq Require Import Core BinarySingleNaN Relative Plus_error.
From Verif Require Import Py B_list M_aux S_aux P_buffer M_slicer S_filter P_eq M_f64 S_f64 P_f64 M_eq64 S_eq64.
Import List.
Open Scope R_scope.

Definition eta : R := bpow radix2 (-1075).
Lemma eta_pos : 0 < eta.
Proof. apply bpow_gt_0. Qed.
Lemma err_gen r : Rabs (rnd r - r) <= u53 * Rabs r + eta.
Proof.
  destruct (error_N_FLT radix2 (-1074) 53 eq_refl (fun x => negb (Z.even x)) r) as (e & t & He & Ht & _ & H). rewrite H.
  replace (r * (1 + e) + t - r) with (e * r + t) by ring. eapply Rle_trans; [apply Rabs_triang|]. rewrite Rabs_mult. apply Rplus_le_compat.
  - apply Rmult_le_compat_r; [apply Rabs_pos|]. eapply Rle_trans; [exact He|]. rewrite u_ro_53 || idtac. unfold u53. change (- (53) + 1)%Z with (-52)%Z. change (-52)%Z with (1 + -53)%Z. rewrite bpow_plus. change (bpow radix2 1) with 2. lra.
  - eapply Rle_trans; [exact Ht|]. unfold eta. change (-1074)%Z with (1 + -1075)%Z. rewrite bpow_plus. change (bpow radix2 1) with 2. lra.
Qed.
Lemma err_add a b : fmt a -> fmt b -> Rabs (rnd (a + b) - (a + b)) <= u53 * Rabs (a + b).
Proof.
  intros A B. destruct (FLT_plus_error_N_ex radix2 (-1074) 53 (fun x => negb (Z.even x)) a b A B) as (e & E & H). rewrite H. pose proof u53_pos as U.
  replace ((a + b) * (1 + e) - (a + b)) with (e * (a + b)) by ring. rewrite Rabs_mult. apply Rmult_le_compat_r; [apply Rabs_pos|]. rewrite u_ro_53 in E.
  eapply Rle_trans; [exact E|]. apply Rmult_le_reg_r with (1 + u53); [lra|]. replace (u53 / (1 + u53) * (1 + u53)) with u53 by (field; lra). nra.
Qed.
Lemma big_lt : two 1022 < bpow radix2 1024.
Proof. apply bpow_lt. lia. Qed.
Lemma rnd_big r : Rabs r <= big -> Rabs (rnd r) < bpow radix2 1024.
Proof. intros H. eapply Rle_lt_trans; [|apply big_lt]. apply (abs_round_le_generic radix2 (FLT_exp (-1074) 53) ZnearestE r big); auto. apply fmt_pow; lia. Qed.
Lemma add_val x y : finite x -> finite y -> Rabs (val x + val y) <= big -> val (add64 x y) = rnd (val x + val y) /\ finite (add64 x y).
Proof.
  intros Fx Fy B. pose proof (Bplus_correct 53 1024 _ _ mode_NE x y Fx Fy) as H. rewrite Rlt_bool_true in H; [|apply (rnd_big _ B)]. destruct H as (H1 & H2 & _). split; [exact H1|exact H2].
Qed.
Lemma mul_val x y : finite x -> finite y -> Rabs (val x * val y) <= big -> val (mul64 x y) = rnd (val x * val y) /\ finite (mul64 x y).
Proof.
  intros Fx Fy B. pose proof (Bmult_correct 53 1024 _ _ mode_NE x y) as H. rewrite Rlt_bool_true in H; [|apply (rnd_big _ B)]. destruct H as (H1 & H2 & _). split; [exact H1|].
  unfold finite, mul64 in *. rewrite H2, Fx, Fy. reflexivity.
Qed.
Lemma fma_val x y z : finite x -> finite y -> finite z -> Rabs (val x * val y + val z) <= big -> val (fma64 x y z) = rnd (val x * val y + val z) /\ finite (fma64 x y z).
Proof.
  intros Fx Fy Fz B. pose proof (Bfma_correct 53 1024 _ _ mode_NE x y z Fx Fy Fz) as H. cbv zeta in H. rewrite Rlt_bool_true in H; [|apply (rnd_big _ B)]. destruct H as (H1 & H2 & _). split; [exact H1|exact H2].
Qed.
Lemma sub_val' x y : finite x -> finite y -> Rabs (val x - val y) <= big -> val (sub64 x y) = rnd (val x - val y) /\ finite (sub64 x y).
Proof.
  intros Fx Fy B. pose proof (Bminus_correct 53 1024 _ _ mode_NE x y Fx Fy) as H. rewrite Rlt_bool_true in H; [|apply (rnd_big _ B)]. destruct H as (H1 & H2 & _). split; [exact H1|exact H2].
Qed.

(** Growth of the error. *)
Definition grow (n : nat) : R := (1 + u53) ^ n.
Lemma grow_ge1 n : 1 <= grow n.
Proof. unfold grow. pose proof u53_pos. induction n as [|n IH]; cbn [pow]; nra. Qed.
Lemma grow_mono m n : (m <= n)%nat -> grow m <= grow n.
Proof. intros H. unfold grow. apply Rle_pow; auto. pose proof u53_pos. lra. Qed.
Lemma grow_S n : grow (S n) = (1 + u53) * grow n.
Proof. reflexivity. Qed.
Lemma grow_bound n : INR n * u53 <= 1 / 2 -> grow n <= 1 + 2 * (INR n * u53).
Proof.
  pose proof u53_pos as U. induction n as [|n IH]; intros H; [unfold grow; cbn; lra|]. rewrite S_INR in *. rewrite grow_S. pose proof (pos_INR n). specialize (IH ltac:(nra)). nra.
Qed.
Definition product (p : f64 * f64) : R := val (fst p) * val (snd p).
Definition exact (ps : list (f64 * f64)) : R := total (map product ps).
Definition heft (ps : list (f64 * f64)) : R := total (map Rabs (map product ps)).
Lemma total_app a b : total (a ++ b) = total a + total b.
Proof. induction a as [|x a IH]; unfold total in *; cbn [app fold_right]; [|rewrite IH]; ring. Qed.
Lemma total_perm a b : Permutation a b -> total a = total b.
Proof. induction 1 as [|x l l' P IH|x y l|l l' l'' P1 IH1 P2 IH2]; [reflexivity| | |congruence]; unfold total in *; cbn [fold_right]; [now rewrite IH|ring]. Qed.
Lemma exact_app a b : exact (a ++ b) = exact a + exact b.
Proof. unfold exact. now rewrite map_app, total_app. Qed.
Lemma heft_app a b : heft (a ++ b) = heft a + heft b.
Proof. unfold heft. now rewrite !map_app, total_app. Qed.
Lemma exact_perm a b : Permutation a b -> exact a = exact b.
Proof. intros H. apply total_perm. now apply Permutation_map. Qed.
Lemma heft_perm a b : Permutation a b -> heft a = heft b.
Proof. intros H. apply total_perm. now do 2 apply Permutation_map. Qed.
Lemma total_abs l : Rabs (total l) <= total (map Rabs l).
Proof. induction l as [|x l IH]; cbn [map total fold_right]; [rewrite Rabs_R0; lra|]. eapply Rle_trans; [apply Rabs_triang|]. unfold total in *. lra. Qed.
Lemma exact_heft ps : Rabs (exact ps) <= heft ps.
Proof. apply total_abs. Qed.
Lemma heft_pos ps : 0 <= heft ps.
Proof. eapply Rle_trans; [apply Rabs_pos|apply exact_heft]. Qed.
Definition numbers (ps : list (f64 * f64)) : Prop := forall p, In p ps -> finite (fst p) /\ finite (snd p).
Definition err (n : nat) (w : R) : R := (grow n - 1) * w + INR n * eta * grow n.
Definition limit : R := two 1000.
Lemma limit_vals : 1 <= limit /\ 16 * limit <= big /\ eta <= 1.
Proof.
  split; [|split]; [change 1 with (bpow radix2 0); apply bpow_le; lia| |change 1 with (bpow radix2 0); apply bpow_le; lia].
  change 16 with (bpow radix2 4). unfold limit, two. rewrite <- bpow_plus. apply bpow_le. lia.
Qed.
Lemma few n : (Z.of_nat n <= 2 ^ 50)%Z -> INR n * u53 <= 1 / 8 /\ grow n <= 2 /\ INR n * eta <= 1.
Proof.
  intros H. apply IZR_le in H. rewrite <- INR_IZR_INZ, pow2_IZR in H by lia.
  assert (A : INR n * u53 <= 1 / 8).
  { apply Rle_trans with (bpow radix2 50 * u53); [apply Rmult_le_compat_r; auto; apply Rlt_le, u53_pos|]. unfold u53. rewrite <- bpow_plus. change (50 + -53)%Z with (-3)%Z. apply Req_le. cbn. lra. }
  split; auto. split; [pose proof (grow_bound n ltac:(lra)); lra|]. apply Rle_trans with (bpow radix2 50 * eta); [apply Rmult_le_compat_r; auto; apply Rlt_le, eta_pos|].
  unfold eta. rewrite <- bpow_plus. change 1 with (bpow radix2 0). apply bpow_le. lia.
Qed.
Lemma err_limit n w : (Z.of_nat n <= 2 ^ 50)%Z -> 0 <= w <= limit -> w + err n w <= 4 * limit.
Proof.
  intros H [W0 W]. destruct (few n H) as (_ & G & E). pose proof (grow_ge1 n). destruct limit_vals as (L1 & _ & _). unfold err.
  assert (INR n * eta * grow n <= 2) by (pose proof (pos_INR n); pose proof eta_pos; assert (0 <= INR n * eta) by nra; nra). nra.
Qed.
Lemma err_0 w : err 0 w = 0.
Proof. unfold err, grow. cbn. lra. Qed.
Lemma err_pos n w : 0 <= w -> 0 <= err n w.
Proof. intros W. unfold err. pose proof (grow_ge1 n). pose proof (pos_INR n). pose proof eta_pos. assert (0 <= INR n * eta) by nra. nra. Qed.
(** Merging two partial sums. *)
Lemma err_merge n1 n2 w1 w2 : (0 < n1)%nat -> (0 < n2)%nat -> 0 <= w1 -> 0 <= w2 ->
  (1 + u53) * (err n1 w1 + err n2 w2) + u53 * (w1 + w2) <= err (n1 + n2) (w1 + w2).
Proof.
  intros P1 P2 W1 W2. unfold err. pose proof u53_pos as U. pose proof eta_pos as H. replace (n1 + n2)%nat with (S (n1 + n2 - 1)) at 1 3 by lia. rewrite grow_S. set (g := grow (n1 + n2 - 1)).
  assert (G1 : grow n1 <= g) by (apply grow_mono; lia). assert (G2 : grow n2 <= g) by (apply grow_mono; lia). pose proof (grow_ge1 n1). pose proof (grow_ge1 n2).
  rewrite plus_INR. pose proof (pos_INR n1). pose proof (pos_INR n2).
  assert (A1 : (grow n1 - 1) * w1 <= (g - 1) * w1) by nra. assert (A2 : (grow n2 - 1) * w2 <= (g - 1) * w2) by nra.
  assert (B1 : INR n1 * eta * grow n1 <= INR n1 * eta * g) by (apply Rmult_le_compat_l; nra). assert (B2 : INR n2 * eta * grow n2 <= INR n2 * eta * g) by (apply Rmult_le_compat_l; nra).
  apply Rle_trans with ((1 + u53) * ((g - 1) * w1 + INR n1 * eta * g + ((g - 1) * w2 + INR n2 * eta * g)) + u53 * (w1 + w2)); [|apply Req_le; ring].
  apply Rplus_le_compat_r. apply Rmult_le_compat_l; lra.
Qed.
Lemma err_fuse n w p : 0 <= w -> 0 <= p -> (1 + u53) * err n w + u53 * (p + w) + eta <= err (S n) (p + w).
Proof.
  intros W P. unfold err. rewrite grow_S, S_INR. pose proof u53_pos as U. pose proof eta_pos as H. pose proof (grow_ge1 n). pose proof (pos_INR n). set (g := grow n) in *.
  replace (((1 + u53) * g - 1) * (p + w) + (INR n + 1) * eta * ((1 + u53) * g)) with ((1 + u53) * ((g - 1) * w + INR n * eta * g) + u53 * w + (((1 + u53) * g - 1) * p + eta * ((1 + u53) * g))) by ring.
  assert (K : 1 + u53 <= (1 + u53) * g) by nra. assert (u53 * p <= ((1 + u53) * g - 1) * p) by (apply Rmult_le_compat_r; lra).
  assert (eta * 1 <= eta * ((1 + u53) * g)) by (apply Rmult_le_compat_l; lra). lra.
Qed.
Lemma perm_numbers a b : Permutation a b -> numbers a -> numbers b.
Proof. intros P H p I. apply H. apply Permutation_in with b; auto. now apply Permutation_sym. Qed.
Lemma dot_bound ps r : dot_value ps r -> numbers ps -> (Z.of_nat (length ps) <= 2 ^ 50)%Z -> heft ps <= limit ->
  finite r /\ Rabs (val r - exact ps) <= err (length ps) (heft ps).
Proof.
  destruct limit_vals as (L1 & L2 & Le). pose proof u53_pos as U. pose proof eta_pos as Eta.
  induction 1 as [s|x y|l l1 l2 a b P D1 IH1 D2 IH2|l l1 x y a P D IH]; intros N Len W.
  - split; [reflexivity|]. cbn. rewrite err_0. unfold Rminus. rewrite Rplus_0_l, Ropp_0, Rabs_R0. lra.
  - destruct (N (x, y) (or_introl eq_refl)) as [Fx Fy]. cbn [fst snd] in *. unfold heft in W. cbn [map total fold_right product fst snd] in W. rewrite Rplus_0_r in W. unfold product in W. cbn [fst snd] in W.
    destruct (mul_val x y Fx Fy ltac:(lra)) as [V F]. split; auto. rewrite V. unfold exact, heft. cbn [length map total fold_right]. unfold product. cbn [fst snd]. rewrite !Rplus_0_r.
    eapply Rle_trans; [apply err_gen|]. unfold err, grow. cbn [pow INR]. pose proof (Rabs_pos (val x * val y)). nra.
  - pose proof (perm_numbers _ _ P N) as N'. assert (N1 : numbers l1) by (intros p I; apply N', in_or_app; auto). assert (N2 : numbers l2) by (intros p I; apply N', in_or_app; auto).
    pose proof (Permutation_length P) as PL. rewrite app_length in PL. pose proof (heft_perm _ _ P) as PH. rewrite heft_app in PH. pose proof (exact_perm _ _ P) as PE. rewrite exact_app in PE.
    pose proof (heft_pos l1) as H1. pose proof (heft_pos l2) as H2.
    destruct (IH1 N1 ltac:(lia) ltac:(lra)) as [F1 E1]. destruct (IH2 N2 ltac:(lia) ltac:(lra)) as [F2 E2].
    pose proof (err_limit (length l1) (heft l1) ltac:(lia) ltac:(lra)) as M1. pose proof (err_limit (length l2) (heft l2) ltac:(lia) ltac:(lra)) as M2.
    pose proof (exact_heft l1) as X1. pose proof (exact_heft l2) as X2.
    assert (S : Rabs (val a + val b - exact l) <= err (length l1) (heft l1) + err (length l2) (heft l2)).
    { rewrite PE. replace (val a + val b - (exact l1 + exact l2)) with ((val a - exact l1) + (val b - exact l2)) by ring. eapply Rle_trans; [apply Rabs_triang|]. lra. }
    pose proof (exact_heft l) as X.
    assert (B : Rabs (val a + val b) <= heft l + (err (length l1) (heft l1) + err (length l2) (heft l2))).
    { replace (val a + val b) with ((val a + val b - exact l) + exact l) by ring. eapply Rle_trans; [apply Rabs_triang|]. lra. }
    destruct (add_val a b F1 F2 ltac:(lra)) as [V F]. split; auto. rewrite V.
    destruct l1 as [|p1 l1].
    { unfold exact, heft in E1. cbn [map total fold_right length] in E1. rewrite err_0 in E1. rewrite Rminus_0_r in E1. assert (val a = 0) as Za by (destruct (Req_dec (val a) 0) as [|Q]; auto; apply Rabs_pos_lt in Q; lra).
      rewrite Za, Rplus_0_l. rewrite (round_generic radix2 (FLT_exp (-1074) 53) ZnearestE (val b)) by apply fmt_val. rewrite PE, PL, PH. unfold exact at 1, heft at 1. cbn [map total fold_right length Nat.add]. rewrite !Rplus_0_l. exact E2. }
    destruct l2 as [|p2 l2].
    { unfold exact, heft in E2. cbn [map total fold_right length] in E2. rewrite err_0 in E2. rewrite Rminus_0_r in E2. assert (val b = 0) as Za by (destruct (Req_dec (val b) 0) as [|Q]; auto; apply Rabs_pos_lt in Q; lra).
      rewrite Za, Rplus_0_r. rewrite (round_generic radix2 (FLT_exp (-1074) 53) ZnearestE (val a)) by apply fmt_val. rewrite PE, PL, PH. unfold exact at 2, heft at 2. cbn [map total fold_right length]. rewrite Nat.add_0_r, !Rplus_0_r. exact E1. }
    replace (rnd (val a + val b) - exact l) with ((rnd (val a + val b) - (val a + val b)) + (val a + val b - exact l)) by ring. eapply Rle_trans; [apply Rabs_triang|].
    pose proof (err_add (val a) (val b) (fmt_val a) (fmt_val b)) as R.
    rewrite PL, PH in *. eapply Rle_trans; [|apply err_merge; cbn [length]; auto; lia].
    assert (u53 * Rabs (val a + val b) <= u53 * (heft (p1 :: l1) + heft (p2 :: l2) + (err (length (p1 :: l1)) (heft (p1 :: l1)) + err (length (p2 :: l2)) (heft (p2 :: l2))))) by (apply Rmult_le_compat_l; lra). lra.
  - pose proof (perm_numbers _ _ P N) as N'. assert (N1 : numbers l1) by (intros p I; apply N'; now right). destruct (N' (x, y) (or_introl eq_refl)) as [Fx Fy]. cbn [fst snd] in *.
    pose proof (Permutation_length P) as PL. cbn [length] in PL. pose proof (heft_perm _ _ P) as PH. pose proof (exact_perm _ _ P) as PE.
    change ((x, y) :: l1) with ([(x, y)] ++ l1) in PH, PE. rewrite heft_app in PH. rewrite exact_app in PE.
    assert (XH : heft [(x, y)] = Rabs (val x * val y)) by (unfold heft, product; cbn; apply Rplus_0_r). assert (XE : exact [(x, y)] = val x * val y) by (unfold exact, product; cbn; apply Rplus_0_r). rewrite XH in PH. rewrite XE in PE.
    pose proof (heft_pos l1) as H1. pose proof (Rabs_pos (val x * val y)) as H2.
    destruct (IH N1 ltac:(lia) ltac:(lra)) as [F1 E1]. pose proof (err_limit (length l1) (heft l1) ltac:(lia) ltac:(lra)) as M1. pose proof (exact_heft l) as X.
    assert (S : Rabs (val x * val y + val a - exact l) <= err (length l1) (heft l1)) by (rewrite PE; replace (val x * val y + val a - (val x * val y + exact l1)) with (val a - exact l1) by ring; exact E1).
    assert (B : Rabs (val x * val y + val a) <= heft l + err (length l1) (heft l1)).
    { replace (val x * val y + val a) with ((val x * val y + val a - exact l) + exact l) by ring. eapply Rle_trans; [apply Rabs_triang|]. lra. }
    destruct (fma_val x y a Fx Fy F1 ltac:(lra)) as [V F]. split; auto. rewrite V.
    replace (rnd (val x * val y + val a) - exact l) with ((rnd (val x * val y + val a) - (val x * val y + val a)) + (val x * val y + val a - exact l)) by ring. eapply Rle_trans; [apply Rabs_triang|].
    pose proof (err_gen (val x * val y + val a)) as R. rewrite PL, PH in *. eapply Rle_trans; [|apply err_fuse; auto].
    assert (u53 * Rabs (val x * val y + val a) <= u53 * (Rabs (val x * val y) + heft l1 + err (length l1) (heft l1))) by (apply Rmult_le_compat_l; lra). lra.
Qed.
Lemma err_simple n w : (Z.of_nat n <= 2 ^ 50)%Z -> 0 <= w -> err n w <= INR n * two (-52) * w + INR n * two (-1074).
Proof.
  intros H W. destruct (few n H) as (A & G & _). pose proof (grow_bound n ltac:(lra)) as B. unfold err.
  assert (E1 : two (-52) = 2 * u53) by (unfold two, u53; change (-52)%Z with (1 + -53)%Z; rewrite bpow_plus; reflexivity).
  assert (E2 : two (-1074) = 2 * eta) by (unfold two, eta; change (-1074)%Z with (1 + -1075)%Z; rewrite bpow_plus; reflexivity). rewrite E1, E2.
  pose proof (pos_INR n). pose proof eta_pos. apply Rplus_le_compat; [apply Rle_trans with (2 * (INR n * u53) * w); [apply Rmult_le_compat_r; lra|lra]|].
  replace (INR n * (2 * eta)) with (INR n * eta * 2) by ring. apply Rmult_le_compat_l; nra.
Qed.
Lemma rounding_step a b A B nf nd wa wb : finite a -> finite b -> (Z.of_nat (nf + nd) <= 2 ^ 50)%Z -> 0 <= wa -> 0 <= wb -> wa + wb <= limit ->
  Rabs A <= wa -> Rabs B <= wb -> Rabs (val a - A) <= err nf wa -> Rabs (val b - B) <= err nd wb ->
  finite (sub64 a b) /\ Rabs (val (sub64 a b) - (A - B)) <= rounding (nf + nd) (wa + wb) /\ Rabs (val (sub64 a b)) <= big.
Proof.
  intros Fa Fb N Wa Wb W HA HB Ea Eb. destruct limit_vals as (L1 & L2 & _). pose proof u53_pos as U.
  pose proof (err_limit nf wa ltac:(lia) ltac:(lra)) as M1. pose proof (err_limit nd wb ltac:(lia) ltac:(lra)) as M2.
  assert (S : Rabs (val a - val b - (A - B)) <= err nf wa + err nd wb).
  { replace (val a - val b - (A - B)) with ((val a - A) + - (val b - B)) by ring. eapply Rle_trans; [apply Rabs_triang|]. rewrite Rabs_Ropp. lra. }
  assert (AB : Rabs (A - B) <= wa + wb) by (unfold Rminus; eapply Rle_trans; [apply Rabs_triang|]; rewrite Rabs_Ropp; lra).
  assert (D : Rabs (val a - val b) <= wa + wb + (err nf wa + err nd wb)).
  { replace (val a - val b) with ((val a - val b - (A - B)) + (A - B)) by ring. eapply Rle_trans; [apply Rabs_triang|]. lra. }
  destruct (sub_val' a b Fa Fb ltac:(lra)) as [V F]. split; auto. rewrite V.
  split; [|apply (abs_round_le_generic radix2 (FLT_exp (-1074) 53) ZnearestE _ big); [apply fmt_pow; lia|lra]].
  replace (rnd (val a - val b) - (A - B)) with ((rnd (val a - val b) - (val a - val b)) + (val a - val b - (A - B))) by ring.
  eapply Rle_trans; [apply Rabs_triang|]. pose proof (err_add (val a) (- val b) (fmt_val a) (generic_format_opp _ _ _ (fmt_val b))) as R. fold (val a - val b) in R.
  pose proof (err_simple nf wa ltac:(lia) Wa) as E1. pose proof (err_simple nd wb ltac:(lia) Wb) as E2.
  destruct (few (nf + nd) N) as (Q & _ & _). unfold rounding. rewrite !plus_INR in *. change (INR 1) with 1. pose proof (pos_INR nf). pose proof (pos_INR nd).
  assert (T1 : two (-52) = 2 * u53) by (unfold two, u53; change (-52)%Z with (1 + -53)%Z; rewrite bpow_plus; reflexivity).
  assert (T2 : two (-1072) = 4 * two (-1074)) by (unfold two; change (-1072)%Z with (2 + -1074)%Z; rewrite bpow_plus; reflexivity). rewrite T1, T2 in *.
  assert (T3 : 0 < two (-1074)) by apply bpow_gt_0. set (t := two (-1074)) in *. set (F1 := INR nf) in *. set (F2 := INR nd) in *.
  assert (U1 : u53 <= 1) by (change 1 with (bpow radix2 0); apply bpow_le; lia).
  assert (X : u53 * Rabs (val a - val b) <= u53 * (wa + wb + (err nf wa + err nd wb))) by (apply Rmult_le_compat_l; lra).
  assert (Y : (1 + u53) * (err nf wa + err nd wb) <= (1 + u53) * ((F1 * (2 * u53) * wa + F1 * t) + (F2 * (2 * u53) * wb + F2 * t))) by (apply Rmult_le_compat_l; lra).
  assert (K1 : u53 * (F1 * u53) <= u53 * (1 / 8)) by (apply Rmult_le_compat_l; nra). assert (K2 : u53 * (F2 * u53) <= u53 * (1 / 8)) by (apply Rmult_le_compat_l; nra).
  assert (P1 : u53 * (F1 * u53) * wa <= u53 * (1 / 8) * wa) by (apply Rmult_le_compat_r; lra). assert (P2 : u53 * (F2 * u53) * wb <= u53 * (1 / 8) * wb) by (apply Rmult_le_compat_r; lra).
  assert (P3 : u53 * ((F1 + F2) * t) <= 1 * ((F1 + F2) * t)) by (apply Rmult_le_compat_r; nra).
  assert (P4 : 0 <= F1 * u53 * wb) by (repeat apply Rmult_le_pos; lra). assert (P5 : 0 <= F2 * u53 * wa) by (repeat apply Rmult_le_pos; lra).
  assert (P6 : 0 <= u53 * wa) by nra. assert (P7 : 0 <= u53 * wb) by nra. assert (P8 : 0 <= (F1 + F2) * t) by nra. nra.
Qed.

(** The slicer on one value. *)
Definition decided (levels : list f64) (x : f64) : f64 := match slice_one64 levels x with Ok d => d | Raise _ => x end.
Lemma slice_one64_ok levels x : levels <> [] -> slice_one64 levels x = Ok (decided levels x).
Proof.
  intros N. unfold decided, slice_one64, slicer64. destruct levels as [|l0 ls]; [congruence|]. cbn [length Nat.eqb map_res]. unfold slice_index64. cbn [map argmin64 bind]. reflexivity.
Qed.
Lemma decided_near levels x : levels <> [] -> Forall fine levels -> fine x -> exists i, (i < length levels)%nat /\ decided levels x = level levels i /\
  forall j, (j < length levels)%nat -> distance x (level levels i) <= (1 + two (-52)) * distance x (level levels j).
Proof.
  intros N L X. destruct (slicer64_spec levels [x] N L ltac:(constructor; auto)) as (idx & E & Len & H). destruct (H 0%nat ltac:(cbn; lia)) as (Hi & P & _). cbn [length] in Len. destruct idx as [|i [|? ?]]; try discriminate. cbn [nth] in *.
  exists i. split; auto. split; [unfold decided, slice_one64; rewrite E; reflexivity|]. intros j Hj. apply nearest_of_rnd. apply (P j Hj).
Qed.

(** The loop. *)
Lemma mem_update64 L (v : f64) mem : length mem = L -> (0 < L)%nat -> (if (1 <? L)%nat then v :: slice_to mem (-1) else v :: []) = firstn L (v :: mem).
Proof.
  intros E H. destruct (Nat.ltb_spec 1 L) as [Q|Q].
  - destruct L as [|L]; [lia|]. cbn [firstn]. f_equal. change (-1)%Z with (- Z.of_nat 1)%Z. rewrite slice_to_neg by lia. f_equal. lia.
  - replace L with 1%nat by lia. reflexivity.
Qed.
Lemma firstn_cons_firstn64 L (v : f64) l : firstn L (v :: firstn L l) = firstn L (v :: l).
Proof. destruct L; auto. rewrite !firstn_cons, firstn_firstn. f_equal. f_equal. lia. Qed.
Lemma fed_back_ext osr phase md s1 s2 n : (forall i, (i < n)%nat -> level s1 i = level s2 i) -> fed_back osr phase md s1 n = fed_back osr phase md s2 n.
Proof. intros H. unfold fed_back. f_equal. apply map_ext_in. intros i Hi. apply H. eapply instants_lt; eauto. Qed.
Definition window (F : nat) (zx : list f64) (n : nat) : list f64 := map (fun j => nth (n + j) zx zero64) (seq 0 F).
Section Loop64.
  Variables (dot : nat -> list f64 -> list f64 -> f64) (ffe dfe levels : list f64) (osr phase : Z) (z x md : list f64).
  Hypothesis (HF : (0 < length ffe)%nat) (HD : (0 < length dfe)%nat) (Lz : length z = (length ffe - 1)%nat) (Ho : (0 < osr)%Z) (NL : levels <> []) (Lm : length md = length dfe).
  Definition loop_eqn (n : nat) (sin sout : list f64) : Prop :=
    level sin n = sub64 (dot (2 * n)%nat (window (length ffe) (z ++ x) n) (rev ffe)) (dot (2 * n + 1)%nat (firstn (length dfe) (fed_back osr phase md sout n)) dfe).
  Lemma loop64_spec : forall k n sin sout, (n + k = length x)%nat -> length sin = n -> sout = map (decided levels) sin -> (forall i, (i < n)%nat -> loop_eqn i sin sout) ->
    exists sin', dfe_loop64 dot ffe dfe levels osr phase (length x) (map (window (length ffe) (z ++ x)) (seq n k)) n sin sout (firstn (length dfe) (fed_back osr phase md sout n)) =
      Ok (sin', firstn (length dfe) (fed_back osr phase md (map (decided levels) sin') (length x))) /\ length sin' = length x /\
      (forall i, (i < length x)%nat -> loop_eqn i sin' (map (decided levels) sin')).
  Proof.
    induction k as [|k IH]; intros n sin sout Hn Ls -> E.
    - exists sin. cbn [seq map dfe_loop64]. replace (length x) with n by lia. repeat split; auto.
    - cbn [seq map dfe_loop64]. unfold np_dot64 at 1. rewrite (proj2 (Nat.eqb_eq (length (window (length ffe) (z ++ x) n)) (length (rev ffe)))) by (unfold window; rewrite map_length, seq_length, rev_length; auto). cbn [bind].
      set (sout := map (decided levels) sin) in *. assert (Lo : length sout = n) by (unfold sout; now rewrite map_length).
      assert (LC : forall so, length (firstn (length dfe) (fed_back osr phase md so n)) = length dfe).
      { intros so. rewrite firstn_length. unfold fed_back. rewrite app_length. lia. }
      unfold np_dot64 at 1. rewrite (proj2 (Nat.eqb_eq _ _) (LC sout)). cbn [bind]. destruct (Nat.leb_spec (length x) n); [lia|].
      set (v := sub64 _ _). rewrite slice_one64_ok by auto. cbn [bind]. destruct (Z.eqb_spec osr 0); [lia|].
      assert (So : sout ++ [decided levels v] = map (decided levels) (sin ++ [v])) by (unfold sout; now rewrite map_app).
      assert (CE : forall m, (m <= n)%nat -> fed_back osr phase md sout m = fed_back osr phase md (sout ++ [decided levels v]) m).
      { intros m Hm. apply fed_back_ext. intros i Hi. unfold level. now rewrite app_nth1 by lia. }
      assert (Eq' : forall i, (i < S n)%nat -> loop_eqn i (sin ++ [v]) (map (decided levels) (sin ++ [v]))).
      { intros i Hi. rewrite <- So. unfold loop_eqn. rewrite <- CE by lia. destruct (Nat.eq_dec i n) as [->|Ne].
        - unfold level. rewrite app_nth2, Ls, Nat.sub_diag by lia. cbn [nth]. reflexivity.
        - unfold level at 1. rewrite app_nth1 by lia. apply (E i). lia. }
      specialize (IH (S n) (sin ++ [v]) (map (decided levels) (sin ++ [v])) ltac:(lia) ltac:(rewrite app_length; cbn; lia) eq_refl Eq').
      rewrite <- So in IH. unfold fed_back at 1 in IH. rewrite instants_S in IH by auto. rewrite CE by lia.
      destruct ((Z.of_nat n mod osr =? (phase + osr / 2) mod osr)%Z && (0 <=? Z.of_nat n - osr / 2)%Z) eqn:C.
      + apply andb_true_iff in C. destruct C as [C1 C2]. rewrite C1, C2. apply Z.leb_le in C2. assert (0 <= osr / 2)%Z by (apply Z.div_pos; lia).
        rewrite (np_get_Z _ _ (B754_nan : f64)) by (rewrite !app_length, repeat_length; cbn [length]; lia). cbn [bind].
        rewrite app_nth1 by (rewrite app_length; cbn [length]; lia). rewrite mem_update64 by (auto; apply LC). rewrite firstn_cons_firstn64.
        cbn [app map] in IH. replace (Z.to_nat (Z.of_nat n - osr / 2)) with (n - Z.to_nat (osr / 2))%nat by lia. exact IH.
      + replace (if (Z.of_nat n mod osr =? (phase + osr / 2) mod osr)%Z then _ else Ok (firstn (length dfe) (fed_back osr phase md (sout ++ [decided levels v]) n)))
          with (Ok (firstn (length dfe) (fed_back osr phase md (sout ++ [decided levels v]) n)) : res (list f64)).
        2:{ destruct (_ =? _)%Z; auto. cbn [andb] in C. now rewrite C. }
        cbn [bind]. cbn [app] in IH. exact IH.
  Qed.
End Loop64.
Lemma eq_rows64 (F : nat) (z x : list f64) : (0 < F)%nat -> length z = (F - 1)%nat -> x <> [] ->
  buffer zero64 (fun x y => Beqb x y) (z ++ x) (Z.of_nat F) (Z.of_nat F - 1) 0 false = Ok (map (window F (z ++ x)) (seq 0 (length x))).
Proof.
  intros HF L Nx. change 0%Z with (Z.of_nat 0) at 1. rewrite buffer_noclip; [|destruct z; [exact Nx|discriminate]|exact HF|lia].
  f_equal. rewrite app_length. unfold ceil_div. assert (0 < length x)%nat by (destruct x; [congruence|cbn; lia]).
  replace (Z.to_nat ((Z.of_nat 0 + Z.of_nat (length z + length x) - Z.max (Z.of_nat F - 1) 0 + (Z.of_nat F - (Z.of_nat F - 1)) - 1) / (Z.of_nat F - (Z.of_nat F - 1)))) with (length x).
  - apply map_ext. intros n. replace (Z.to_nat (Z.of_nat F - (Z.of_nat F - 1))) with 1%nat by lia. rewrite Nat.mul_1_r. unfold frame, window.
    apply map_ext. intros j. unfold delayed. rewrite Nat.sub_0_r. reflexivity.
  - replace (Z.of_nat F - (Z.of_nat F - 1))%Z with 1%Z by lia. rewrite Z.div_1_r. lia.
Qed.
(** The sums behind the dot products. *)
Definition past_ffe64 (zi : option (list f64)) : list f64 := match zi with None => [] | Some z => rev z end.
Definition past_dfe64 (D : nat) (zi : option (list f64)) : list f64 := match zi with None => repeat zero64 D | Some z => z end.
Lemma level_val l i (d : f64) : val d = 0 -> val (nth i l d) = val (level l i).
Proof. intros H. unfold level. destruct (Nat.lt_ge_cases i (length l)); [f_equal; now apply nth_indep|]. rewrite !nth_overflow by auto. exact H. Qed.
Lemma sample_rev z x k : (- Z.of_nat (length z) <= k)%Z -> sample (rev z) x k = val (level (z ++ x) (Z.to_nat (k + Z.of_nat (length z)))).
Proof.
  intros H. unfold sample, level. destruct (Z.ltb_spec k 0).
  - rewrite rev_nth by lia. rewrite app_nth1 by lia. do 2 f_equal. lia.
  - rewrite app_nth2 by lia. do 2 f_equal. lia.
Qed.
Definition used (F : nat) (zi : option (list f64)) : list f64 := match zi with None => repeat zero64 (F - 1) | Some z => tl z end.
Lemma used_ok F zi : (0 < F)%nat -> (forall z, zi = Some z -> length z = F) ->
  match zi with None => if (F =? 0)%nat then Raise ValueError else Ok (repeat zero64 (F - 1)) | Some z => if (length z =? F)%nat then Ok (tl z) else Raise TypeError end = Ok (used F zi) /\
  length (used F zi) = (F - 1)%nat /\ forall k x, (- Z.of_nat (F - 1) <= k)%Z -> sample (rev (used F zi)) x k = sample (past_ffe64 zi) x k.
Proof.
  intros HF H. destruct zi as [z|]; cbn [used past_ffe64].
  - assert (L := H z eq_refl). rewrite L, Nat.eqb_refl. split; auto. split; [destruct z; cbn in *; lia|].
    intros k x Hk. destruct z as [|z0 z]; [cbn in L; lia|]. cbn [tl length] in *. rewrite !sample_rev by (cbn [length]; lia). cbn [length].
    replace (Z.to_nat (k + Z.of_nat (S (length z)))) with (S (Z.to_nat (k + Z.of_nat (length z)))) by lia. reflexivity.
  - destruct (Nat.eqb_spec F 0); [lia|]. split; auto. split; [apply repeat_length|].
    intros k x Hk. rewrite rev_repeat. unfold sample. destruct (Z.ltb_spec k 0); auto. rewrite <- (level_val _ _ zero64) by reflexivity.
    rewrite <- (level_val [] _ zero64) by reflexivity. f_equal. rewrite nth_overflow with (l := []) by (cbn; lia). clear. generalize (Z.to_nat (- k - 1)). induction (F - 1)%nat as [|m IH]; intros [|i]; cbn; auto.
Qed.
Lemma combine_products u v n : length u = n -> length v = n -> map product (combine u v) = map (fun i => val (level u i) * val (level v i)) (seq 0 n).
Proof.
  revert v n. induction u as [|a u IH]; intros [|b v] [|n] Lu Lv; try discriminate; auto. cbn [combine map seq]. f_equal. rewrite <- seq_shift, map_map. apply IH; auto.
Qed.
Lemma ffe_products ffe z x n : length z = (length ffe - 1)%nat -> (0 < length ffe)%nat -> (n < length x)%nat ->
  map product (combine (window (length ffe) (z ++ x) n) (rev ffe)) = rev (cursors ffe (rev z) x n).
Proof.
  intros L HF Hn. rewrite (combine_products _ _ (length ffe)) by (unfold window; rewrite ?map_length, ?seq_length, ?rev_length; auto).
  unfold cursors. rewrite <- map_rev. apply nth_ext with 0 0; [now rewrite !map_length, rev_length|]. intros i Hi. rewrite map_length, seq_length in Hi.
  rewrite (nth_map_seq (fun i => val (level (window (length ffe) (z ++ x) n) i) * val (level (rev ffe) i))) by auto.
  rewrite (map_nth_lt _ _ _ 0%nat) by (rewrite rev_length, seq_length; auto). rewrite rev_nth by (rewrite seq_length; auto). rewrite seq_length, seq_nth by lia.
  rewrite sample_rev by lia. rewrite Rmult_comm. f_equal.
  - unfold level. rewrite rev_nth by auto. do 2 f_equal; lia.
  - unfold level at 1, window. rewrite (nth_map_seq (fun j => nth (n + j) (z ++ x) zero64)) by auto. rewrite level_val by reflexivity. f_equal. f_equal. lia.
Qed.
Lemma dfe_products dfe osr phase md sout n : length md = length dfe ->
  map product (combine (firstn (length dfe) (fed_back osr phase md sout n)) dfe) = echoes dfe osr phase md sout n.
Proof.
  intros L. assert (Lc : length (firstn (length dfe) (fed_back osr phase md sout n)) = length dfe) by (rewrite firstn_length; unfold fed_back; rewrite app_length; lia).
  rewrite (combine_products _ _ (length dfe)) by auto. unfold echoes. apply map_ext_in. intros i Hi. apply in_seq in Hi. rewrite Rmult_comm. f_equal. f_equal. unfold level. apply nth_firstn. lia.
Qed.
Lemma total_rev l : total (rev l) = total l.
Proof. apply total_perm. apply Permutation_sym, Permutation_rev. Qed.
Lemma sample_list mx x mx' n ffe : (forall k, (- Z.of_nat (length ffe - 1) <= k)%Z -> sample mx x k = sample mx' x k) -> cursors ffe mx x n = cursors ffe mx' x n.
Proof. intros H. unfold cursors. apply map_ext_in. intros i Hi. apply in_seq in Hi. f_equal. apply H. lia. Qed.
Lemma numbers_combine u v : Forall finite u -> Forall finite v -> numbers (combine u v).
Proof. intros U V [a b] I. rewrite Forall_forall in U, V. split; [apply U; eapply in_combine_l; eauto|apply V; eapply in_combine_r; eauto]. Qed.
Lemma fine_finite l : Forall fine l -> Forall finite l.
Proof. intros H. eapply Forall_impl; [|exact H]. intros a [F _]. exact F. Qed.
Lemma zero_finite : finite zero64.
Proof. reflexivity. Qed.
Lemma window_finite F l n : Forall finite l -> Forall finite (window F l n).
Proof.
  intros H. apply Forall_forall. intros y I. apply in_map_iff in I. destruct I as (j & <- & _). destruct (Nat.lt_ge_cases (n + j) (length l)); [|rewrite nth_overflow by auto; reflexivity].
  rewrite Forall_forall in H. apply H. now apply nth_In.
Qed.
Lemma fed_back_finite osr phase md sout n : Forall finite md -> Forall finite sout -> (n <= length sout)%nat -> Forall finite (fed_back osr phase md sout n).
Proof.
  intros M S L. apply Forall_app. split; auto. apply Forall_forall. intros y I. apply in_map_iff in I. destruct I as (j & <- & J). apply instants_lt in J. rewrite Forall_forall in S. apply S. apply nth_In. lia.
Qed.
Lemma decided_in levels x : levels <> [] -> In (decided levels x) levels.
Proof.
  intros N. unfold decided, slice_one64, slicer64. destruct levels as [|l0 ls]; [congruence|]. cbn [length Nat.eqb map_res]. unfold slice_index64. cbn [map argmin64 bind np_get]. unfold np_get. cbn [length Z.of_nat Z.ltb Z.leb Z.compare andb Z.to_nat nth_error].
  set (i := argmin64_from _ _ _ _).
  assert (B : forall l best bi k, (bi < k)%nat -> (argmin64_from best bi k l < k + length l)%nat).
  { clear. induction l as [|y l IH]; intros best bi k H; cbn [argmin64_from length]; [lia|]. destruct (less64 y best); [specialize (IH y k (S k) ltac:(lia))|specialize (IH best bi (S k) ltac:(lia))]; lia. }
  specialize (B (map (fun l => abs64 (sub64 x l)) ls) (abs64 (sub64 x l0)) 0%nat 1%nat ltac:(lia)). fold i in B. rewrite map_length in B.
  assert (H : In (nth i (l0 :: ls) x) (l0 :: ls)) by (apply nth_In; cbn [length]; lia). exact H.
Qed.
Lemma decided_level levels x : levels <> [] -> Forall finite levels -> finite (decided levels x).
Proof. intros N L. rewrite Forall_forall in L. apply L. now apply decided_in. Qed.
Lemma slicer64_decided levels xs : levels <> [] -> slicer64 levels xs = Ok (map (decided levels) xs).
Proof.
  intros N. unfold slicer64. destruct (Nat.eqb_spec (length levels) 0) as [E|_]; [destruct levels; [congruence|discriminate]|].
  induction xs as [|x xs IH]; auto. cbn [map_res map]. rewrite IH. pose proof (slice_one64_ok levels x N) as H. unfold slice_one64, slicer64 in H. destruct (Nat.eqb_spec (length levels) 0) as [E|_]; [destruct levels; [congruence|discriminate]|].
  cbn [map_res] in H. destruct (slice_index64 levels x) as [i|e]; cbn [bind] in H |- *; [|discriminate]. unfold np_get in H. cbn in H. injection H as H. now rewrite <- H.
Qed.
(** The call without any assumption on the numbers. *)
Lemma call64_loop dot x ffe dfe levels osr phase zf zd : x <> [] -> ffe <> [] -> dfe <> [] -> levels <> [] -> (0 < osr)%Z ->
  (forall z, zf = Some z -> length z = length ffe) -> (forall z, zd = Some z -> length z = length dfe) ->
  let z := used (length ffe) zf in let md := past_dfe64 (length dfe) zd in
  exists sin, let sout := map (decided levels) sin in
    ffe_dfe64 dot x ffe dfe levels osr phase zf zd = Ok (sin, if (length ffe =? 1)%nat then None else Some (window (length ffe) (z ++ x) (length x - 1)), firstn (length dfe) (fed_back osr phase md sout (length x))) /\
    length sin = length x /\ forall n, (n < length x)%nat -> loop_eqn dot ffe dfe osr phase z x md n sin sout.
Proof.
  intros Nx Nf Nd NL Ho Lf Ld z md. assert (HF : (0 < length ffe)%nat) by (destruct ffe; [congruence|cbn; lia]). assert (HD : (0 < length dfe)%nat) by (destruct dfe; [congruence|cbn; lia]).
  assert (HX : (0 < length x)%nat) by (destruct x; [congruence|cbn; lia]). destruct (used_ok (length ffe) zf HF Lf) as (Ez & Lz & _). fold z in Ez, Lz.
  assert (Lm : length md = length dfe) by (unfold md, past_dfe64; destruct zd; [now apply Ld|apply repeat_length]).
  assert (Em : match zd with None => Ok (repeat zero64 (length dfe)) | Some q => if (length q =? length dfe)%nat then Ok q else Raise TypeError end = Ok md).
  { unfold md, past_dfe64. destruct zd; auto. now rewrite (Ld l eq_refl), Nat.eqb_refl. }
  destruct (loop64_spec dot ffe dfe levels osr phase z x md HF HD Lz Ho NL Lm (length x) 0 [] [] eq_refl eq_refl eq_refl ltac:(lia)) as (sin & E & L & Q).
  exists sin. cbv zeta. split; [|split; auto].
  unfold ffe_dfe64. rewrite Em. cbn [bind]. rewrite Ez. cbn [bind]. rewrite eq_rows64 by auto. cbn [bind].
  replace (firstn (length dfe) (fed_back osr phase md [] 0)) with md in E.
  2:{ unfold fed_back, sampling_instants. cbn [Nat.sub seq filter rev map app]. symmetry. apply firstn_all2. lia. }
  rewrite E. cbn [bind]. destruct (Nat.eqb_spec (length ffe) 1); auto.
  change (-1)%Z with (- Z.of_nat 1)%Z. rewrite (np_get_neg _ _ []) by (rewrite map_length, seq_length; lia). cbn [bind]. do 3 f_equal. f_equal.
  rewrite map_length, seq_length. rewrite nth_map_seq by lia. f_equal; lia.
Qed.

Section Call.
  Variables (dot : nat -> list f64 -> list f64 -> f64) (x ffe dfe levels : list f64) (osr phase : Z) (zf zd : option (list f64)).
  Let mx := past_ffe64 zf.
  Let md := past_dfe64 (length dfe) zd.
  Hypothesis (Dot : any_order dot) (Nx : x <> []) (Nf : ffe <> []) (Nd : dfe <> []) (NL : levels <> []) (Ho : (0 < osr)%Z).
  Hypothesis (Lf : forall z, zf = Some z -> length z = length ffe) (Ld : forall z, zd = Some z -> length z = length dfe).
  Hypothesis (Fx : Forall finite x) (Ff : Forall finite ffe) (Fd : Forall finite dfe) (FL : Forall fine levels) (Fzf : forall z, zf = Some z -> Forall finite z) (Fzd : forall z, zd = Some z -> Forall finite z).
  Hypothesis (Few : (Z.of_nat (length ffe + length dfe) <= 2 ^ 50)%Z).
  Lemma call64_spec : exists sin zo, let sout := map (decided levels) sin in
    ffe_dfe64 dot x ffe dfe levels osr phase zf zd = Ok (sin, zo, firstn (length dfe) (fed_back osr phase md sout (length x))) /\ length sin = length x /\
    forall n, (n < length x)%nat -> weight ffe dfe mx md osr phase x sout n <= two 1000 ->
      fine (level sin n) /\ Rabs (val (level sin n) - exact_input ffe dfe mx md osr phase x sout n) <= rounding (length ffe + length dfe) (weight ffe dfe mx md osr phase x sout n).
  Proof.
    assert (HF : (0 < length ffe)%nat) by (destruct ffe; [congruence|cbn; lia]). assert (HD : (0 < length dfe)%nat) by (destruct dfe; [congruence|cbn; lia]).
    assert (HX : (0 < length x)%nat) by (destruct x; [congruence|cbn; lia]).
    destruct (used_ok (length ffe) zf HF Lf) as (Ez & Lz & Tz). set (z := used (length ffe) zf) in *.
    assert (Lm : length md = length dfe) by (unfold md, past_dfe64; destruct zd; [now apply Ld|apply repeat_length]).
    assert (Rf : forall m, Forall finite (repeat zero64 m)) by (intros m; apply Forall_forall; intros y I; apply repeat_spec in I; now subst).
    assert (Fz : Forall finite z). { unfold z, used. destruct zf as [q|]; auto. specialize (Fzf q eq_refl). destruct q; auto. now inversion Fzf. }
    assert (Fm : Forall finite md) by (unfold md, past_dfe64; destruct zd; auto).
    destruct (call64_loop dot x ffe dfe levels osr phase zf zd Nx Nf Nd NL Ho Lf Ld) as (sin & C & L & Q). cbv zeta in C, Q. fold z md in C, Q.
    exists sin. eexists. cbv zeta. split; [exact C|]. split; [exact L|].
    - intros n Hn W. set (sout := map (decided levels) sin) in *. assert (Fs : Forall finite sout).
      { apply Forall_forall. intros y I. apply in_map_iff in I. destruct I as (v & <- & _). apply decided_level; auto. now apply fine_finite. }
      assert (Lo : length sout = length x) by (unfold sout; now rewrite map_length).
      assert (Lw : length (window (length ffe) (z ++ x) n) = length (rev ffe)) by (unfold window; now rewrite map_length, seq_length, rev_length).
      assert (Lc : length (firstn (length dfe) (fed_back osr phase md sout n)) = length dfe) by (rewrite firstn_length; unfold fed_back; rewrite app_length; lia).
      assert (CE : cursors ffe (rev z) x n = cursors ffe mx x n) by (apply sample_list; intros k Hk; apply Tz; auto).
      assert (P1 := ffe_products ffe z x n Lz HF Hn). rewrite CE in P1. assert (P2 := dfe_products dfe osr phase md sout n Lm).
      assert (H1 : heft (combine (window (length ffe) (z ++ x) n) (rev ffe)) = total (map Rabs (cursors ffe mx x n))) by (unfold heft; rewrite P1, map_rev; apply total_rev).
      assert (H2 : exact (combine (window (length ffe) (z ++ x) n) (rev ffe)) = total (cursors ffe mx x n)) by (unfold exact; rewrite P1; apply total_rev).
      assert (H3 : heft (combine (firstn (length dfe) (fed_back osr phase md sout n)) dfe) = total (map Rabs (echoes dfe osr phase md sout n))) by (unfold heft; now rewrite P2).
      assert (H4 : exact (combine (firstn (length dfe) (fed_back osr phase md sout n)) dfe) = total (echoes dfe osr phase md sout n)) by (unfold exact; now rewrite P2).
      unfold weight in W |- *. fold limit in W. rewrite <- H1, <- H3 in W |- *. unfold exact_input. rewrite <- H2, <- H4.
      set (c1 := combine (window _ _ _) _) in *. set (c2 := combine (firstn _ _) _) in *.
      pose proof (heft_pos c1). pose proof (heft_pos c2).
      assert (L1 : length c1 = length ffe) by (unfold c1; rewrite combine_length, Lw, rev_length; lia). assert (L2 : length c2 = length dfe) by (unfold c2; rewrite combine_length, Lc; lia).
      destruct (dot_bound c1 (dot (2 * n)%nat (window (length ffe) (z ++ x) n) (rev ffe))) as [F1 B1].
      { apply Dot; auto. } { apply numbers_combine; [apply window_finite; apply Forall_app; auto|now apply Forall_rev]. } { lia. } { lra. }
      destruct (dot_bound c2 (dot (2 * n + 1)%nat (firstn (length dfe) (fed_back osr phase md sout n)) dfe)) as [F2 B2].
      { apply Dot; auto. } { apply numbers_combine; auto. apply Forall_firstn. apply fed_back_finite; auto; lia. } { lia. } { lra. }
      rewrite L1 in B1. rewrite L2 in B2. rewrite (Q n Hn).
      destruct (rounding_step _ _ (exact c1) (exact c2) (length ffe) (length dfe) (heft c1) (heft c2) F1 F2) as (G1 & G2 & G3); auto; try apply exact_heft.
      split; [split; auto|exact G2].
  Qed.
End Call.

(** Streaming, when equal dot products have equal results. *)
Lemma firstn_app_firstn (L : nat) (u v : list f64) : firstn L (u ++ firstn L v) = firstn L (u ++ v).
Proof. rewrite (firstn_app L u (firstn L v)), (firstn_app L u v). f_equal. rewrite firstn_firstn. f_equal. lia. Qed.
Lemma fed_back_add osr phase md L N k o1 o2 : (0 < osr)%Z -> (Z.of_nat N mod osr = 0)%Z -> (phase mod osr + osr / 2 < osr)%Z -> length o1 = N ->
  firstn L (fed_back osr phase (firstn L (fed_back osr phase md o1 N)) o2 k) = firstn L (fed_back osr phase md (o1 ++ o2) (N + k)).
Proof.
  intros Ho HN Hp L1. unfold fed_back. rewrite instants_add by auto. rewrite map_app, map_map, <- app_assoc.
  replace (map (fun s => level (o1 ++ o2) (N + s)%nat) (sampling_instants osr phase k)) with (map (level o2) (sampling_instants osr phase k)).
  2:{ apply map_ext. intros s. unfold level. rewrite app_nth2 by lia. f_equal. lia. }
  replace (map (level (o1 ++ o2)) (sampling_instants osr phase N)) with (map (level o1) (sampling_instants osr phase N)).
  2:{ apply map_ext_in. intros s Hs. apply instants_lt in Hs. unfold level. now rewrite app_nth1 by lia. }
  apply firstn_app_firstn.
Qed.

Lemma window_ext F l l' n m : (forall j, (j < F)%nat -> nth (n + j) l zero64 = nth (m + j) l' zero64) -> window F l n = window F l' m.
Proof. intros H. unfold window. apply map_ext_in. intros j Hj. apply in_seq in Hj. apply H. lia. Qed.
Lemma nth_tl_window F l n j : (S j < F)%nat -> nth j (tl (window F l n)) zero64 = nth (n + S j) l zero64.
Proof.
  intros H. replace (nth j (tl (window F l n)) zero64) with (nth (S j) (window F l n) zero64) by (destruct (window F l n); cbn; auto; destruct j; auto). unfold window. now rewrite nth_map_seq by lia.
Qed.
Lemma decided_nth levels sin n : (n < length sin)%nat -> level (map (decided levels) sin) n = decided levels (level sin n).
Proof. intros H. unfold level. now rewrite (map_nth_lt _ _ _ (B754_nan : f64)) by auto. Qed.
Lemma stream64 dot x1 x2 ffe dfe levels osr phase zf zd : (forall k k' u v, dot k u v = dot k' u v) -> x1 <> [] -> x2 <> [] -> (2 <= length ffe)%nat -> dfe <> [] -> levels <> [] -> (0 < osr)%Z ->
  (forall z, zf = Some z -> length z = length ffe) -> (forall z, zd = Some z -> length z = length dfe) ->
  (Z.of_nat (length x1) mod osr = 0)%Z -> (phase mod osr + osr / 2 < osr)%Z ->
  exists s1 f1 d1 s2 f2 d2, ffe_dfe64 dot x1 ffe dfe levels osr phase zf zd = Ok (s1, Some f1, d1) /\
    ffe_dfe64 dot x2 ffe dfe levels osr phase (Some f1) (Some d1) = Ok (s2, Some f2, d2) /\
    ffe_dfe64 dot (x1 ++ x2) ffe dfe levels osr phase zf zd = Ok (s1 ++ s2, Some f2, d2).
Proof.
  intros Rep N1 N2 HF Nd NL Ho Lf Ld HN Hp. assert (Nf : ffe <> []) by (destruct ffe; [cbn in HF; lia|discriminate]).
  assert (P1 : (0 < length x1)%nat) by (destruct x1; [congruence|cbn; lia]). assert (P2 : (0 < length x2)%nat) by (destruct x2; [congruence|cbn; lia]).
  destruct (used_ok (length ffe) zf ltac:(lia) Lf) as (_ & Lz & _).
  destruct (call64_loop dot x1 ffe dfe levels osr phase zf zd N1 Nf Nd NL Ho Lf Ld) as (s1 & C1 & L1 & Q1). cbv zeta in C1, Q1.
  destruct (call64_loop dot (x1 ++ x2) ffe dfe levels osr phase zf zd ltac:(destruct x1; [congruence|discriminate]) Nf Nd NL Ho Lf Ld) as (s & C & L & Q). cbv zeta in C, Q.
  set (z := used (length ffe) zf) in *. set (md := past_dfe64 (length dfe) zd) in *.
  set (f1 := window (length ffe) (z ++ x1) (length x1 - 1)) in *. set (o1 := map (decided levels) s1) in *. set (d1 := firstn (length dfe) (fed_back osr phase md o1 (length x1))) in *.
  assert (Lm : length md = length dfe) by (unfold md, past_dfe64; destruct zd; [now apply Ld|apply repeat_length]).
  assert (Lf1 : length f1 = length ffe) by (unfold f1, window; now rewrite map_length, seq_length).
  assert (Ld1 : length d1 = length dfe) by (unfold d1; rewrite firstn_length; unfold fed_back; rewrite app_length; lia).
  destruct (call64_loop dot x2 ffe dfe levels osr phase (Some f1) (Some d1) N2 Nf Nd NL Ho ltac:(now intros q [= <-]) ltac:(now intros q [= <-])) as (s2 & C2 & L2 & Q2). cbv zeta in C2, Q2. cbn [used past_dfe64] in C2, Q2.
  set (o2 := map (decided levels) s2) in *. set (o := map (decided levels) s) in *. rewrite app_length in L.
  assert (Lt : length (tl f1) = (length ffe - 1)%nat) by (destruct f1; cbn [length tl] in *; lia).
  assert (Win : forall m j, (j < length ffe)%nat -> nth (m + j) (tl f1 ++ x2) zero64 = nth (length x1 + m + j) (z ++ x1 ++ x2) zero64).
  { intros m j Hj. destruct (Nat.lt_ge_cases (m + j) (length (tl f1))) as [A|A].
    - rewrite app_nth1 by auto. unfold f1. rewrite nth_tl_window by lia. rewrite app_assoc, (app_nth1 (z ++ x1)) by (rewrite app_length; lia). f_equal. lia.
    - rewrite app_nth2 by auto. rewrite app_assoc, (app_nth2 (z ++ x1)) by (rewrite app_length; lia). f_equal. rewrite app_length. lia. }
  assert (Lo1 : length o1 = length x1) by (unfold o1; now rewrite map_length). assert (Lo2 : length o2 = length x2) by (unfold o2; now rewrite map_length). assert (Lo : length o = (length x1 + length x2)%nat) by (unfold o; now rewrite map_length).
  assert (K : forall n, (n < length x1 + length x2)%nat -> level s n = level (s1 ++ s2) n).
  { induction n as [n IH] using (well_founded_induction lt_wf). intros Hn.
    assert (IHo : forall i, (i < n)%nat -> level o i = level (o1 ++ o2) i).
    { intros i Hi. unfold o, o1, o2. rewrite <- map_app. rewrite !decided_nth by (rewrite ?app_length; lia). now rewrite IH by lia. }
    rewrite (Q n ltac:(rewrite app_length; lia)). destruct (Nat.lt_ge_cases n (length x1)) as [A|A].
    - transitivity (level s1 n); [|unfold level; now rewrite app_nth1 by lia]. rewrite (Q1 n A). f_equal.
      + f_equal. apply window_ext. intros j Hj. rewrite app_assoc, (app_nth1 (z ++ x1)) by (rewrite app_length; lia). reflexivity.
      + f_equal. f_equal. apply fed_back_ext. intros i Hi. rewrite IHo by lia. unfold level. now rewrite app_nth1 by lia.
    - set (m := (n - length x1)%nat). assert (En : n = (length x1 + m)%nat) by lia. clearbody m. subst n.
      transitivity (level s2 m); [|unfold level; rewrite app_nth2 by lia; f_equal; lia]. rewrite (Q2 m ltac:(lia)). f_equal.
      + rewrite (Rep (2 * m)%nat (2 * (length x1 + m))%nat). f_equal. symmetry. apply window_ext. intros j Hj. now apply Win.
      + rewrite (Rep (2 * m + 1)%nat (2 * (length x1 + m) + 1)%nat). f_equal. unfold d1. rewrite fed_back_add by auto. f_equal. now apply fed_back_ext. }
  assert (Es : s = s1 ++ s2) by (apply nth_ext with (B754_nan : f64) (B754_nan : f64); [rewrite app_length; lia|]; intros n Hn; apply K; lia).
  exists s1, f1, d1, s2, (window (length ffe) (tl f1 ++ x2) (length x2 - 1)), (firstn (length dfe) (fed_back osr phase d1 o2 (length x2))).
  destruct (Nat.eqb_spec (length ffe) 1); [lia|]. split; [exact C1|]. split; [exact C2|]. rewrite C. f_equal. f_equal; [f_equal|].
  - exact Es.
  - f_equal. symmetry. apply window_ext. intros j Hj. rewrite Win by auto. f_equal. rewrite app_length. lia.
  - unfold d1. rewrite fed_back_add by auto. rewrite app_length. f_equal. apply fed_back_ext. intros i Hi. unfold o. rewrite Es. unfold o1, o2. now rewrite map_app.
Qed.
