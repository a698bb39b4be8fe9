(** Vectors and linear maps over GF(2), represented by lists of 0/1 integers.  Used for the PRBS
    period proof (repeated squaring of the register's step matrix). *)
From Verif Require Import Py B_list.

Definition bv (n : nat) (v : list Z) : Prop := length v = n /\ bits v.
Definition xorZ (a b : Z) : Z := (a + b) mod 2.
Definition xorv (u v : list Z) : list Z := map2 xorZ u v.
Definition zerov (n : nat) : list Z := repeat 0 n.

Lemma bv_zero n : bv n (zerov n).
Proof. split; [apply repeat_length|]. apply Forall_forall. intros x H. apply repeat_spec in H. left; auto. Qed.
Lemma xorv_bv n u v : bv n u -> bv n v -> bv n (xorv u v).
Proof.
  intros [H1 H2] [H3 H4]. split.
  - unfold xorv. rewrite map2_length. lia.
  - clear -H2. revert v. unfold xorv. induction u; intros [|b v]; simpl; constructor.
    + apply isbit_mod.
    + apply IHu. inversion H2; auto.
Qed.
Lemma bv_cons n b v : bv (S n) (b :: v) <-> isbit b /\ bv n v.
Proof.
  unfold bv, bits. simpl. split.
  - intros [H1 H2]. inversion H2; subst. repeat split; auto.
  - intros [H1 [H2 H3]]. split; auto.
Qed.
Lemma xorv_zero_r n v : bv n v -> xorv v (zerov n) = v.
Proof.
  revert n; induction v as [|b v IH]; intros [|n] [H1 H2]; try (simpl in H1; lia); auto.
  inversion H2; subst. change (xorZ b 0 :: xorv v (zerov n) = b :: v).
  rewrite IH by (split; auto). f_equal. unfold xorZ. destruct H3; subst; reflexivity.
Qed.
Lemma xorv_comm u v : xorv u v = xorv v u.
Proof. apply map2_comm. intros. unfold xorZ. f_equal; lia. Qed.
Lemma xorv_zero_l n v : bv n v -> xorv (zerov n) v = v.
Proof. intros. rewrite xorv_comm. now apply xorv_zero_r. Qed.
Lemma xorv_assoc u v w : xorv (xorv u v) w = xorv u (xorv v w).
Proof.
  unfold xorv. revert v w; induction u; intros [|b v] [|c w]; simpl; auto. f_equal; auto.
  unfold xorZ. rewrite Zplus_mod_idemp_l, Zplus_mod_idemp_r. f_equal; lia.
Qed.
Lemma xorv_self n v : length v = n -> xorv v v = zerov n.
Proof.
  intros <-. induction v; auto. change (xorZ a a :: xorv v v = 0 :: zerov (length v)). rewrite IHv. f_equal.
  unfold xorZ. replace (a + a) with (a * 2) by lia. apply Z.mod_mul. lia.
Qed.
Lemma xorv_eq_zero n u v : bv n u -> bv n v -> xorv u v = zerov n -> u = v.
Proof.
  intros Hu Hv H. rewrite <- (xorv_zero_r n u Hu).
  rewrite <- (xorv_self n v) by apply Hv. rewrite <- xorv_assoc, H. now apply xorv_zero_l.
Qed.

(** linear maps *)
Definition lin (n : nat) (f : list Z -> list Z) : Prop :=
  (forall v, bv n v -> bv n (f v)) /\
  (forall u v, bv n u -> bv n v -> f (xorv u v) = xorv (f u) (f v)).
Lemma lin_zero n f : lin n f -> f (zerov n) = zerov n.
Proof.
  intros [H1 H2]. assert (bv n (f (zerov n))) as [Hl _] by apply H1, bv_zero.
  rewrite <- (xorv_self n (zerov n)) at 1 by apply bv_zero.
  rewrite H2 by apply bv_zero. now apply xorv_self.
Qed.
Lemma lin_comp n f g : lin n f -> lin n g -> lin n (fun v => f (g v)).
Proof.
  intros [F1 F2] [G1 G2]. split; auto. intros. rewrite G2, F2; auto.
Qed.
Lemma lin_id n : lin n (fun v => v).
Proof. split; auto. Qed.
Lemma lin_xor n f g : lin n f -> lin n g -> lin n (fun v => xorv (f v) (g v)).
Proof.
  intros [F1 F2] [G1 G2]. split.
  - intros. apply xorv_bv; auto.
  - intros. rewrite F2, G2 by auto. rewrite !xorv_assoc. f_equal.
    rewrite <- !xorv_assoc. f_equal. apply xorv_comm.
Qed.
Lemma lin_iter n f k : lin n f -> lin n (fun v => Nat.iter k f v).
Proof.
  intros H. induction k; simpl; [apply lin_id|]. apply (lin_comp n f); auto.
Qed.

(** matrices: list of the images of the basis vectors *)
Fixpoint app_mat (n : nat) (v : list Z) (m : list (list Z)) : list Z :=
  match v, m with
  | b :: v', c :: m' => if b =? 1 then xorv c (app_mat n v' m') else app_mat n v' m'
  | _, _ => zerov n
  end.
Fixpoint basis (n : nat) : list (list Z) :=
  match n with O => [] | S n' => (1 :: zerov n') :: map (cons 0) (basis n') end.
Definition mat_of (n : nat) (f : list Z -> list Z) := map f (basis n).
Definition mat_mul (n : nat) (a b : list (list Z)) := map (fun c => app_mat n c a) b.
Definition mat_add (a b : list (list Z)) := map2 xorv a b.
Fixpoint mat_pow (n : nat) (a : list (list Z)) (p : positive) : list (list Z) :=
  match p with
  | xH => a
  | xO q => let s := mat_pow n a q in mat_mul n s s
  | xI q => let s := mat_pow n a q in mat_mul n a (mat_mul n s s)
  end.

Lemma basis_bv n : Forall (bv n) (basis n).
Proof.
  induction n; simpl; constructor.
  - apply bv_cons. split; [right; auto|apply bv_zero].
  - apply Forall_forall. intros x H. apply in_map_iff in H. destruct H as [y [<- H]].
    rewrite Forall_forall in IHn. apply bv_cons. split; [left; auto|]. auto.
Qed.
Lemma app_mat_bv n v m : Forall (bv n) m -> bv n (app_mat n v m).
Proof.
  intros H. revert v; induction H; intros [|b v]; simpl; try apply bv_zero.
  destruct (b =? 1); auto. apply xorv_bv; auto.
Qed.
Lemma app_mat_cons0 n v m : app_mat (S n) v (map (cons 0) m) = 0 :: app_mat n v m.
Proof.
  revert v; induction m; intros [|b v]; simpl; auto.
  destruct (b =? 1); auto. rewrite IHm. reflexivity.
Qed.
Lemma app_mat_basis n v : bv n v -> app_mat n v (basis n) = v.
Proof.
  revert v; induction n; intros [|b v] [H1 H2]; simpl in *; try lia; auto.
  inversion H2; subst. rewrite app_mat_cons0.
  assert (bv n v) by (split; auto).
  rewrite IHn by auto. destruct H3; subst; simpl; auto.
  change (xorv (1 :: zerov n) (0 :: v)) with (1 :: xorv (zerov n) v). now rewrite xorv_zero_l.
Qed.
Lemma lin_app_mat n f v m : lin n f -> Forall (bv n) m -> f (app_mat n v m) = app_mat n v (map f m).
Proof.
  intros Hf Hm. revert v; induction Hm; intros [|b v]; simpl; try now apply lin_zero.
  destruct (b =? 1); auto. destruct Hf as [F1 F2]. rewrite F2, IHHm; auto. now apply app_mat_bv.
Qed.
Lemma mat_of_correct n f v : lin n f -> bv n v -> f v = app_mat n v (mat_of n f).
Proof.
  intros Hf Hv. rewrite <- (app_mat_basis n v Hv) at 1. apply lin_app_mat; auto. apply basis_bv.
Qed.
Lemma mat_of_bv n f : lin n f -> Forall (bv n) (mat_of n f).
Proof.
  intros [H _]. apply Forall_forall. intros x Hx. apply in_map_iff in Hx. destruct Hx as [y [<- Hy]].
  apply H. assert (B := basis_bv n). rewrite Forall_forall in B. auto.
Qed.
Lemma mat_of_ext n f g : (forall v, bv n v -> f v = g v) -> mat_of n f = mat_of n g.
Proof. intros H. apply map_ext_in. intros a Ha. apply H. assert (B := basis_bv n). rewrite Forall_forall in B. auto. Qed.
Lemma mat_mul_correct n f g : lin n f -> lin n g -> mat_mul n (mat_of n f) (mat_of n g) = mat_of n (fun v => f (g v)).
Proof.
  intros Hf Hg. unfold mat_mul. unfold mat_of at 2 3. rewrite map_map. apply map_ext_in. intros a Ha.
  symmetry. apply mat_of_correct; auto. destruct Hg as [G _]. apply G.
  assert (B := basis_bv n). rewrite Forall_forall in B. auto.
Qed.
Lemma iter_add {A} (f : A -> A) a b x : Nat.iter (a + b) f x = Nat.iter a f (Nat.iter b f x).
Proof. induction a; simpl; congruence. Qed.
Lemma mat_pow_correct n f p : lin n f -> mat_pow n (mat_of n f) p = mat_of n (fun v => Nat.iter (Pos.to_nat p) f v).
Proof.
  intros Hf. induction p; cbn [mat_pow].
  - rewrite IHp. rewrite mat_mul_correct by (now apply lin_iter).
    rewrite mat_mul_correct by (auto; apply lin_comp; now apply lin_iter).
    apply mat_of_ext. intros. rewrite <- iter_add.
    replace (Pos.to_nat p~1) with (S (Pos.to_nat p + Pos.to_nat p)) by lia. reflexivity.
  - rewrite IHp. rewrite mat_mul_correct by (now apply lin_iter). apply mat_of_ext. intros.
    rewrite <- iter_add. f_equal. lia.
  - reflexivity.
Qed.
Lemma mat_add_correct n f g : mat_add (mat_of n f) (mat_of n g) = mat_of n (fun v => xorv (f v) (g v)).
Proof.
  unfold mat_add, mat_of. induction (basis n); simpl; auto. f_equal; auto.
Qed.
Lemma basis_is_id n : basis n = mat_of n (fun v => v).
Proof. unfold mat_of. now rewrite map_id. Qed.

(** Computational criteria. *)
Definition period_ok (n : nat) (f : list Z -> list Z) (p : positive) : Prop :=
  mat_pow n (mat_of n f) p = basis n.
Lemma period_ok_spec n f p v : lin n f -> period_ok n f p -> bv n v -> Nat.iter (Pos.to_nat p) f v = v.
Proof.
  intros Hf Hp Hv. unfold period_ok in Hp. rewrite mat_pow_correct in Hp by auto.
  rewrite (mat_of_correct n (fun v => Nat.iter (Pos.to_nat p) f v) v) by (auto; now apply lin_iter).
  rewrite Hp. now apply app_mat_basis.
Qed.
(** [fix_ok]: f^d - id is invertible (inverse found as the power [e] of itself). *)
Definition fix_ok (n : nat) (f : list Z -> list Z) (d e : positive) : Prop :=
  let a := mat_add (mat_pow n (mat_of n f) d) (basis n) in
  mat_mul n (mat_pow n a e) a = basis n.
Lemma fix_ok_spec n f d e v : lin n f -> fix_ok n f d e -> bv n v ->
  Nat.iter (Pos.to_nat d) f v = v -> v = zerov n.
Proof.
  intros Hf H Hv E. unfold fix_ok in H. rewrite mat_pow_correct in H by auto.
  rewrite basis_is_id in H at 1. rewrite basis_is_id in H at 1. rewrite mat_add_correct in H.
  set (g := fun v => xorv (Nat.iter (Pos.to_nat d) f v) v) in *.
  assert (Hg : lin n g) by (apply lin_xor; [now apply lin_iter|apply lin_id]).
  rewrite mat_pow_correct in H by auto.
  rewrite mat_mul_correct in H by (auto; now apply lin_iter).
  rewrite <- (app_mat_basis n v Hv). rewrite <- H.
  rewrite <- mat_of_correct; auto.
  2:{ apply lin_comp; auto. now apply lin_iter. }
  unfold g at 2. rewrite E. rewrite (xorv_self n v) by apply Hv.
  apply (lin_zero n (fun v => Nat.iter (Pos.to_nat e) g v)). now apply lin_iter.
Qed.
