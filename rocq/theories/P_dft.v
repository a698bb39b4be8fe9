(** Discrete Fourier sums: orthogonality, energy, symmetry. *)
From Coq Require Import Reals Lra Lia.
From Verif Require Import Py B_list M_soft M_psa S_channel P_channel P_limits P_psa.
Import List.
Open Scope R_scope.

Lemma sum_upto_const c n : sum_upto (fun _ => c) n = INR n * c.
Proof. induction n as [|n IH]; cbn [sum_upto]; [cbn; lra|]. rewrite IH, S_INR. lra. Qed.
Lemma sum_upto_swap (f : nat -> nat -> R) m n : sum_upto (fun i => sum_upto (fun j => f i j) n) m = sum_upto (fun j => sum_upto (fun i => f i j) m) n.
Proof. induction m as [|m IH]; cbn [sum_upto]; [symmetry; apply sum_upto_0; auto|]. rewrite IH, <- sum_upto_add. apply sum_upto_ext. auto. Qed.
Lemma sum_upto_mul f g m n : sum_upto f m * sum_upto g n = sum_upto (fun i => sum_upto (fun j => f i * g j) n) m.
Proof. induction m as [|m IH]; cbn [sum_upto]; [lra|]. rewrite sum_upto_scale, <- IH. lra. Qed.
Lemma sum_upto_split f a b : sum_upto f (a + b) = sum_upto f a + sum_upto (fun k => f (a + k)%nat) b.
Proof. induction b as [|b IH]; [rewrite Nat.add_0_r; cbn; lra|]. rewrite Nat.add_succ_r. cbn [sum_upto]. rewrite IH. lra. Qed.

(** *** Sums of sines and cosines over full turns *)
Lemma turn_sums th n (m : Z) : INR n * th = 2 * PI * IZR m -> cos th <> 1 ->
  sum_upto (fun k => cos (INR k * th)) n = 0 /\ sum_upto (fun k => sin (INR k * th)) n = 0.
Proof.
  intros H C. set (c := sum_upto (fun k => cos (INR k * th)) n). set (s := sum_upto (fun k => sin (INR k * th)) n).
  assert (E : cos (INR n * th) = 1 /\ sin (INR n * th) = 0).
  { rewrite H. split; [|apply sin_eq_0_1; exists (2 * m)%Z; rewrite mult_IZR; lra].
    replace (2 * PI * IZR m) with (2 * (IZR m * PI)) by ring. rewrite cos_2a_sin. rewrite (sin_eq_0_1 (IZR m * PI)) by (now exists m). lra. }
  assert (A : c = c * cos th - s * sin th).
  { assert (X : sum_upto (fun k => cos (INR k * th)) (S n) = c + 1) by (cbn [sum_upto]; fold c; lra).
    rewrite sum_upto_S in X. change (INR 0) with 0 in X. rewrite Rmult_0_l, cos_0 in X.
    rewrite (sum_upto_ext _ (fun k => cos th * cos (INR k * th) + - sin th * sin (INR k * th))) in X; [|intros k _; cbv beta; rewrite S_INR, Rmult_plus_distr_r, Rmult_1_l, cos_plus; ring].
    rewrite sum_upto_add, !sum_upto_scale in X. fold c s in X. lra. }
  assert (B : s = s * cos th + c * sin th).
  { assert (X : sum_upto (fun k => sin (INR k * th)) (S n) = s) by (cbn [sum_upto]; fold s; lra).
    rewrite sum_upto_S in X. change (INR 0) with 0 in X. rewrite Rmult_0_l, sin_0 in X.
    rewrite (sum_upto_ext _ (fun k => sin th * cos (INR k * th) + cos th * sin (INR k * th))) in X; [|intros k _; cbv beta; rewrite S_INR, Rmult_plus_distr_r, Rmult_1_l, sin_plus; ring].
    rewrite sum_upto_add, !sum_upto_scale in X. fold c s in X. lra. }
  assert (D : sin th * sin th + cos th * cos th = 1) by (generalize (sin2_cos2 th); unfold Rsqr; auto).
  clearbody c s. set (x := cos th) in *. set (y := sin th) in *. clearbody x y.
  assert (c * (2 * (1 - x)) = 0). { replace (2 * (1 - x)) with ((1 - x) * (1 - x) + y * y) by lra. replace (c * ((1 - x) * (1 - x) + y * y)) with ((c - c * x + s * y) * (1 - x) - (s - s * x - c * y) * y) by ring. replace (c - c * x + s * y) with 0 by lra. replace (s - s * x - c * y) with 0 by lra. ring. }
  assert (s * (2 * (1 - x)) = 0). { replace (2 * (1 - x)) with ((1 - x) * (1 - x) + y * y) by lra. replace (s * ((1 - x) * (1 - x) + y * y)) with ((c - c * x + s * y) * y + (s - s * x - c * y) * (1 - x)) by ring. replace (c - c * x + s * y) with 0 by lra. replace (s - s * x - c * y) with 0 by lra. ring. }
  split; nra.
Qed.
Lemma cos_lt_1 th : 0 < th < 2 * PI -> cos th <> 1.
Proof. intros H E. assert (0 < sin (th / 2)) by (apply sin_gt_0; lra). replace th with (2 * (th / 2)) in E by lra. rewrite cos_2a_sin in E. nra. Qed.
Lemma unit_turn n d : (0 < d < n)%nat ->
  sum_upto (fun k => cos (INR k * (2 * PI * INR d / INR n))) n = 0 /\ sum_upto (fun k => sin (INR k * (2 * PI * INR d / INR n))) n = 0.
Proof.
  intros H. assert (N : 0 < INR n) by (apply lt_0_INR; lia). apply (turn_sums _ _ (Z.of_nat d)).
  - rewrite <- INR_IZR_INZ. field. lra.
  - apply cos_lt_1. assert (0 < INR d) by (apply lt_0_INR; lia). assert (INR d < INR n) by (apply lt_INR; lia). assert (P := PI_RGT_0). split.
    + apply Rmult_lt_0_compat; [nra|now apply Rinv_0_lt_compat].
    + apply (Rmult_lt_reg_r (INR n)); [auto|]. unfold Rdiv. rewrite Rmult_assoc, Rinv_l by lra. nra.
Qed.
Definition ang (n k i : nat) : R := 2 * PI * INR k * INR i / INR n.
(** Pairs of frequencies. *)
Lemma orth n i j : (i < n)%nat -> (j < n)%nat ->
  sum_upto (fun k => cos (ang n k i - ang n k j)) n = (if (i =? j)%nat then INR n else 0) /\
  sum_upto (fun k => sin (ang n k i - ang n k j)) n = 0.
Proof.
  intros Hi Hj. assert (N : 0 < INR n) by (apply lt_0_INR; lia). destruct (Nat.eqb_spec i j) as [->|D].
  - split; [rewrite (sum_upto_ext _ (fun _ => 1)), sum_upto_const; [lra|]|apply sum_upto_0]; intros k _; replace (ang n k j - ang n k j) with 0 by ring; [apply cos_0|apply sin_0].
  - destruct (Nat.lt_ge_cases j i) as [L|L].
    + destruct (unit_turn n (i - j)) as (A & B); [lia|]. rewrite minus_INR in A, B by lia.
      split; [rewrite <- A|rewrite <- B]; apply sum_upto_ext; intros k _; f_equal; unfold ang; field; lra.
    + destruct (unit_turn n (j - i)) as (A & B); [lia|]. rewrite minus_INR in A, B by lia. split.
      * rewrite <- A. apply sum_upto_ext. intros k _. rewrite <- cos_neg. f_equal. unfold ang; field; lra.
      * transitivity (-1 * 0); [|ring]. rewrite <- B, <- sum_upto_scale. apply sum_upto_ext. intros k _. match goal with |- _ = -1 * ?t => replace (-1 * t) with (- t) by ring end. rewrite <- sin_neg. f_equal. unfold ang; field; lra.
Qed.
Lemma dft_re_upto n x k : dft_re n x k = sum_upto (fun i => fst (nth i x (0, 0)) * cos (ang n k i) + snd (nth i x (0, 0)) * sin (ang n k i)) (length x).
Proof. unfold dft_re. now rewrite sumR_upto. Qed.
Lemma dft_im_upto n x k : dft_im n x k = sum_upto (fun i => snd (nth i x (0, 0)) * cos (ang n k i) - fst (nth i x (0, 0)) * sin (ang n k i)) (length x).
Proof. unfold dft_im. now rewrite sumR_upto. Qed.
(** Energy is preserved (zero padding allowed). *)
Lemma parseval n x : (length x <= n)%nat ->
  sum_upto (dft_power n x) n = INR n * sum_upto (fun i => fst (nth i x (0, 0)) * fst (nth i x (0, 0)) + snd (nth i x (0, 0)) * snd (nth i x (0, 0))) (length x).
Proof.
  intros L. set (a := fun i => fst (nth i x (0, 0))). set (b := fun i => snd (nth i x (0, 0))). set (m := length x) in *.
  rewrite (sum_upto_ext _ (fun k => sum_upto (fun i => sum_upto (fun j => (a i * a j + b i * b j) * cos (ang n k i - ang n k j) + (b i * a j - a i * b j) * sin (ang n k i - ang n k j)) m) m)).
  2:{ intros k _. unfold dft_power. rewrite dft_re_upto, dft_im_upto. fold m. rewrite !sum_upto_mul, <- sum_upto_add. apply sum_upto_ext. intros i _. rewrite <- sum_upto_add. apply sum_upto_ext. intros j _.
      fold (a i) (a j) (b i) (b j). rewrite cos_minus, sin_minus. ring. }
  rewrite sum_upto_swap, <- sum_upto_scale. apply sum_upto_ext. intros i Hi. rewrite sum_upto_swap.
  rewrite (sum_upto_single _ m i Hi).
  - rewrite sum_upto_add, !sum_upto_scale. destruct (orth n i i ltac:(lia) ltac:(lia)) as (O1 & O2). rewrite O1, O2, Nat.eqb_refl. fold (a i) (b i). ring.
  - intros j Hj D. rewrite sum_upto_add, !sum_upto_scale. destruct (orth n i j ltac:(lia) ltac:(lia)) as (O1 & O2). rewrite O1, O2. destruct (Nat.eqb_spec i j); [lia|]. ring.
Qed.
(** Real signals: mirrored spectrum. *)
Lemma mirror n x k : (k < n)%nat -> Forall (fun v => snd v = 0) x -> dft_power n x (n - k) = dft_power n x k.
Proof.
  intros K Z. assert (N : 0 < INR n) by (apply lt_0_INR; lia). unfold dft_power.
  assert (A : dft_re n x (n - k) = dft_re n x k /\ dft_im n x (n - k) = - dft_im n x k); [|destruct A as (-> & ->); ring].
  assert (S0 : forall i, snd (nth i x (0, 0)) = 0).
  { intros i. destruct (Nat.lt_ge_cases i (length x)); [rewrite Forall_forall in Z; apply Z, nth_In; auto|now rewrite nth_overflow]. }
  assert (T : forall i, cos (ang n (n - k) i) = cos (ang n k i) /\ sin (ang n (n - k) i) = - sin (ang n k i)).
  { intros i. replace (ang n (n - k) i) with (- ang n k i + 2 * INR i * PI) by (unfold ang; rewrite minus_INR by lia; field; lra).
    rewrite cos_period, sin_period, cos_neg, sin_neg. auto. }
  rewrite !dft_re_upto, !dft_im_upto. split.
  - apply sum_upto_ext. intros i _. destruct (T i) as (-> & ->). rewrite S0. ring.
  - replace (- sum_upto _ _) with (-1 * sum_upto (fun i => snd (nth i x (0, 0)) * cos (ang n k i) - fst (nth i x (0, 0)) * sin (ang n k i)) (length x)) by ring.
    rewrite <- sum_upto_scale. apply sum_upto_ext. intros i _. destruct (T i) as (-> & ->). rewrite S0. ring.
Qed.
(** One-sided sums of a mirrored function. *)
Lemma one_sided n f : (0 < n)%nat -> (forall k, (0 < k < n)%nat -> f (n - k)%nat = f k) ->
  sum_upto (fun k => side_factor false n k * f k) (n / 2 + 1) = sum_upto f n.
Proof.
  intros N M. set (h := (n / 2)%nat).
  assert (RF : forall m, (2 * m < n)%nat -> sum_upto (fun k => f (n - m + k)%nat) m = sum_upto (fun k => f (1 + k)%nat) m).
  { intros m Hm. rewrite sum_upto_rev. apply sum_upto_ext. intros k Hk. replace (n - m + (m - 1 - k))%nat with (n - (1 + k))%nat by lia. apply M. lia. }
  destruct (Nat.Even_or_Odd n) as [[q Hq]|[q Hq]].
  - assert (Hh : h = q) by (unfold h; rewrite Hq; rewrite Nat.mul_comm; apply Nat.div_mul; lia). rewrite Hh.
    destruct q as [|q]; [lia|]. replace (S q + 1)%nat with (1 + q + 1)%nat by lia. replace (sum_upto f n) with (sum_upto f (1 + q + 1 + q)) by (f_equal; lia).
    assert (SP : forall g : nat -> R, sum_upto g (1 + q + 1) = g 0%nat + sum_upto (fun k => g (S k)) q + g (S q)).
    { intros g. replace (1 + q + 1)%nat with (S (S q)) by lia. rewrite sum_upto_S. cbn [sum_upto]. lra. }
    rewrite (sum_upto_split f (1 + q + 1) q), !SP.
    assert (E1 : side_factor false n 0 = 1) by reflexivity.
    assert (E2 : side_factor false n (S q) = 1).
    { unfold side_factor. cbn [Nat.eqb]. fold h. rewrite Hh, Nat.eqb_refl. replace (Nat.even n) with true; [reflexivity|]. symmetry. apply Nat.even_spec. exists (S q). lia. }
    rewrite E1, E2. rewrite (sum_upto_ext (fun k => side_factor false n (S k) * f (S k)) (fun k => 2 * f (S k))).
    2:{ intros k Hk. unfold side_factor. cbn [Nat.eqb]. fold h. rewrite Hh. cbn [Nat.eqb]. destruct (Nat.eqb_spec k q); [lia|]. destruct (Nat.even n); reflexivity. }
    rewrite sum_upto_scale. specialize (RF q ltac:(lia)). replace (n - q)%nat with (1 + q + 1)%nat in RF by lia. rewrite RF. cbn [Nat.add]. ring.
  - assert (Hh : h = q) by (unfold h; rewrite Hq; symmetry; apply (Nat.div_unique _ _ q 1); lia). rewrite Hh.
    replace (q + 1)%nat with (1 + q)%nat by lia. replace (sum_upto f n) with (sum_upto f (1 + q + q)) by (f_equal; lia).
    assert (SP : forall g : nat -> R, sum_upto g (1 + q) = g 0%nat + sum_upto (fun k => g (S k)) q) by (intros g; apply sum_upto_S).
    rewrite (sum_upto_split f (1 + q) q), !SP.
    assert (E1 : side_factor false n 0 = 1) by reflexivity. rewrite E1.
    rewrite (sum_upto_ext (fun k => side_factor false n (S k) * f (S k)) (fun k => 2 * f (S k))).
    2:{ intros k Hk. unfold side_factor. cbn [Nat.eqb]. replace (Nat.even n) with false; [reflexivity|]. symmetry. apply Bool.not_true_iff_false. intros E. apply Nat.even_spec in E. destruct E as [u Hu]. lia. }
    rewrite sum_upto_scale. specialize (RF q ltac:(lia)). replace (n - q)%nat with (1 + q)%nat in RF by lia. rewrite RF. cbn [Nat.add]. ring.
Qed.
