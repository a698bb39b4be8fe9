(** Gradient descent on a sum of squares, with one weight per coefficient (proofs for C90). *)
From Verif Require Import Py PyQ B_list B_qc S_estim P_linalg P_lasso.
Open Scope Qc_scope.

Section Descent.
  (** [K] coefficients; coefficient [i] multiplies the signal [u i] of [n] samples; [r] is wanted; [wt i] is the number of samples the gradient of
      coefficient [i] is averaged over. *)
  Context (n K : nat) (u : nat -> nat -> Qc) (r : nat -> Qc) (wt : nat -> Qc) (lr : Qc).
  Definition lin (b : nat -> Qc) (m : nat) : Qc := sm K (fun i => b i * u i m).
  Definition err (b : nat -> Qc) (m : nat) : Qc := lin b m - r m.
  Definition loss (b : nat -> Qc) : Qc := sm n (fun m => sq (err b m)).
  Definition slope (b : nat -> Qc) (i : nat) : Qc := sm n (fun m => err b m * u i m).
  Definition energy_of : Qc := sm n (fun m => sm K (fun i => sq (u i m))).
  Lemma lin_add b c v m : lin (fun i => b i + v * c i) m = lin b m + v * lin c m.
  Proof. unfold lin. rewrite <- sm_scale, <- sm_add. apply sm_ext. intros. ring. Qed.
  Lemma loss_move b c v : loss (fun i => b i + v * c i) = loss b + (v + v) * sm K (fun i => c i * slope b i) + v * v * sm n (fun m => sq (lin c m)).
  Proof.
    assert (E : sm K (fun i => c i * slope b i) = sm n (fun m => err b m * lin c m)).
    { unfold slope, lin. etransitivity; [|symmetry; etransitivity; [apply sm_ext; intros m _; symmetry; apply sm_scale|apply sm_swap]]. apply sm_ext. intros i _. rewrite <- sm_scale. apply sm_ext. intros. ring. }
    rewrite E. unfold loss. rewrite <- !sm_scale, <- !sm_add. apply sm_ext. intros m _. unfold err. rewrite lin_add. unfold sq. ring.
  Qed.
  Lemma lin_bound c : sm n (fun m => sq (lin c m)) <= energy_of * sm K (fun i => sq (c i)).
  Proof.
    unfold energy_of. rewrite Qcmult_comm, <- sm_scale. apply sm_le. intros m _. apply cauchy_schwarz.
  Qed.
  (** The step: each coefficient moves against its slope over [2 wt i]. *)
  Context (Hw : forall i, (i < K)%nat -> 0 < wt i) (Hlr : 0 < lr) (Hsmall : forall i, (i < K)%nat -> lr * energy_of <= (wt i + wt i)).
  Definition grad (b : nat -> Qc) (i : nat) : Qc := slope b i / (wt i + wt i).
  Definition next (b : nat -> Qc) (i : nat) : Qc := b i - lr * grad b i.
  Definition size (b : nat -> Qc) : Qc := sm K (fun i => (wt i + wt i) * sq (grad b i)).
  Lemma wt2 i : (i < K)%nat -> 0 < wt i + wt i. Proof. intros H. apply Hw in H. qlra. Qed.
  Lemma slope_grad b i : (i < K)%nat -> slope b i = (wt i + wt i) * grad b i.
  Proof. intros H. apply wt2 in H. unfold grad. field. intros E. rewrite E in H. now apply (Qclt_not_eq _ _ H). Qed.
  Lemma size_nonneg b : 0 <= size b.
  Proof. apply sm_nonneg. intros i H. apply wt2 in H. apply Qcmult_nonneg; [now apply Qclt_le_weak|apply sq_nonneg]. Qed.
  Lemma descent b : loss (next b) <= loss b - lr * size b.
  Proof.
    assert (E : loss (next b) = loss (fun i => b i + (- lr) * grad b i)). { unfold loss. apply sm_ext. intros m _. unfold err. do 2 f_equal. unfold lin. apply sm_ext. intros i _. unfold next. ring. }
    rewrite E, loss_move. replace (sm K (fun i => grad b i * slope b i)) with (size b) by (apply sm_ext; intros i H; rewrite (slope_grad b i H); unfold sq; ring).
    pose proof (lin_bound (grad b)) as B. assert (C : lr * sm n (fun m => sq (lin (grad b) m)) <= size b).
    { eapply Qcle_trans; [rewrite Qcmult_comm; apply Qcmult_le_compat_r; [exact B|now apply Qclt_le_weak]|]. replace (energy_of * sm K (fun i => sq (grad b i)) * lr) with (sm K (fun i => (lr * energy_of) * sq (grad b i))) by (rewrite sm_scale; ring).
      apply sm_le. intros i H. apply Qcmult_le_compat_r; [now apply Hsmall|apply sq_nonneg]. }
    assert (D : lr * (lr * sm n (fun m => sq (lin (grad b) m))) <= lr * size b) by (rewrite !(Qcmult_comm lr); apply Qcmult_le_compat_r; [rewrite Qcmult_comm; exact C|now apply Qclt_le_weak]).
    set (s := size b) in *. set (z := sm n _) in *. replace (- lr * - lr * z) with (lr * (lr * z)) by ring. replace ((- lr + - lr) * s) with (- (lr * s) - lr * s) by ring. clear - D. qlra.
  Qed.
  Lemma next_lower b : loss (next b) <= loss b.
  Proof. pose proof (descent b). pose proof (size_nonneg b) as S. assert (0 <= lr * size b) by (apply Qcmult_nonneg; auto; now apply Qclt_le_weak). set (z := lr * size b) in *. clear - H H0. qlra. Qed.
  (** Distance to any other coefficients [w]. *)
  Context (w : nat -> Qc).
  Definition dist (b : nat -> Qc) : Qc := sm K (fun i => (wt i + wt i) * sq (b i - w i)).
  Lemma convex b : loss b - loss w <= (1 + 1) * sm K (fun i => (b i - w i) * slope b i).
  Proof.
    pose proof (loss_move b (fun i => w i - b i) 1) as E. assert (E2 : loss (fun i => b i + 1 * (w i - b i)) = loss w). { unfold loss. apply sm_ext. intros m _. unfold err. do 2 f_equal. unfold lin. apply sm_ext. intros i _. ring. }
    cbv beta in E. rewrite E2 in E. assert (N : 0 <= sm n (fun m => sq (lin (fun i => w i - b i) m))) by apply sm_sq_nonneg. replace (sm K (fun i => (w i - b i) * slope b i)) with (- sm K (fun i => (b i - w i) * slope b i)) in E.
    - set (z := sm n _) in *. set (y := sm K _) in *. rewrite E. replace (loss b - (loss b + (1 + 1) * - y + 1 * 1 * z)) with ((1 + 1) * y - z) by ring. clear - N. qlra.
    - replace (- sm K (fun i => (b i - w i) * slope b i)) with ((- (1)) * sm K (fun i => (b i - w i) * slope b i)) by ring. rewrite <- sm_scale. apply sm_ext. intros. ring.
  Qed.
  Lemma approach b : dist (next b) <= dist b - lr * (loss (next b) - loss w).
  Proof.
    assert (E : dist (next b) = dist b - (lr + lr) * sm K (fun i => (b i - w i) * slope b i) + lr * lr * size b).
    { unfold dist, size. rewrite <- !sm_scale, <- sm_sub, <- sm_add. apply sm_ext. intros i H. rewrite (slope_grad b i H). unfold next, sq. ring. }
    rewrite E. pose proof (convex b) as C. pose proof (descent b) as D. assert (LR : 0 <= lr) by (now apply Qclt_le_weak).
    assert (C2 : lr * (loss b - loss w) <= lr * ((1 + 1) * sm K (fun i => (b i - w i) * slope b i))) by (rewrite !(Qcmult_comm lr); now apply Qcmult_le_compat_r).
    assert (D2 : lr * (lr * size b) <= lr * (loss b - loss (next b))). { rewrite (Qcmult_comm lr (lr * _)), (Qcmult_comm lr (loss b - _)). apply Qcmult_le_compat_r; auto. clear - D. set (z := lr * size b) in *. qlra. }
    set (y := sm K _) in *. replace ((lr + lr) * y) with (lr * ((1 + 1) * y)) by ring. replace (lr * lr * size b) with (lr * (lr * size b)) by ring.
    replace (lr * (loss b - loss w)) with (lr * (loss b - loss (next b)) + lr * (loss (next b) - loss w)) in C2 by ring.
    set (p := lr * (loss b - loss (next b))) in *. set (p2 := lr * (loss (next b) - loss w)) in *. set (p3 := lr * ((1 + 1) * y)) in *. set (p4 := lr * (lr * size b)) in *. clear - C2 D2. qlra.
  Qed.
  Fixpoint iterate (N : nat) (b : nat -> Qc) : nat -> Qc := match N with O => b | S N => next (iterate N b) end.
  Lemma iterate_lower N b : loss (iterate N b) <= loss b.
  Proof. induction N as [|N IH]; [apply Qcle_refl|]. eapply Qcle_trans; [apply next_lower|exact IH]. Qed.
  Lemma dist_nonneg b : 0 <= dist b.
  Proof. apply sm_nonneg. intros i H. apply wt2 in H. apply Qcmult_nonneg; [now apply Qclt_le_weak|apply sq_nonneg]. Qed.
  Lemma rate N b : ofZ (Z.of_nat N) * lr * (loss (iterate N b) - loss w) <= dist b.
  Proof.
    assert (G : ofZ (Z.of_nat N) * lr * (loss (iterate N b) - loss w) + dist (iterate N b) <= dist b).
    { induction N as [|N IH]; [cbn [iterate]; change (ofZ (Z.of_nat 0)) with 0; replace (0 * lr * (loss b - loss w) + dist b) with (dist b) by ring; apply Qcle_refl|]. eapply Qcle_trans; [|exact IH]. cbn [iterate].
      pose proof (approach (iterate N b)) as A. pose proof (next_lower (iterate N b)) as L. set (b1 := iterate N b) in *. replace (Z.of_nat (S N)) with (Z.of_nat N + 1)%Z by lia. rewrite ofZ_add. change (ofZ 1) with 1.
      assert (P : 0 <= ofZ (Z.of_nat N) * lr). { apply Qcmult_nonneg; [|now apply Qclt_le_weak]. change 0 with (ofZ 0). apply ofZ_le. lia. }
      assert (M : ofZ (Z.of_nat N) * lr * (loss (next b1) - loss w) <= ofZ (Z.of_nat N) * lr * (loss b1 - loss w)). { rewrite !(Qcmult_comm (ofZ (Z.of_nat N) * lr)). apply Qcmult_le_compat_r; auto. clear - L. qlra. }
      replace ((ofZ (Z.of_nat N) + 1) * lr * (loss (next b1) - loss w)) with (ofZ (Z.of_nat N) * lr * (loss (next b1) - loss w) + lr * (loss (next b1) - loss w)) by ring.
      set (p := ofZ (Z.of_nat N) * lr * (loss (next b1) - loss w)) in *. set (p2 := lr * (loss (next b1) - loss w)) in *. set (p3 := ofZ (Z.of_nat N) * lr * (loss b1 - loss w)) in *. clear - A M. qlra. }
    eapply Qcle_trans; [|exact G]. pose proof (dist_nonneg (iterate N b)) as D. set (p := ofZ _ * lr * _) in *. clear - D. qlra.
  Qed.
End Descent.
