(** Linear algebra over the rationals for C54, C55, C63. *)
From Verif Require Import Py PyQ B_list B_qc M_estim S_estim.
From Coq Require Import Psatz.
Open Scope Qc_scope.

Notation sm := sum_below.
Lemma sm_ext n f g : (forall k, (k < n)%nat -> f k = g k) -> sm n f = sm n g.
Proof. intros H. apply (sumQ_map_ext f g). intros x Hx. apply in_seq in Hx. apply H. lia. Qed.
Lemma sm_add n f g : sm n (fun k => f k + g k) = sm n f + sm n g. Proof. apply (sumQ_map_add f g). Qed.
Lemma sm_scale n c f : sm n (fun k => c * f k) = c * sm n f. Proof. apply (sumQ_map_scale c f). Qed.
Lemma sm_sub n f g : sm n (fun k => f k - g k) = sm n f - sm n g.
Proof. rewrite (sm_ext n _ (fun k => f k + (- (1)) * g k)) by (intros; ring). rewrite sm_add, sm_scale. ring. Qed.
Lemma sm_0 n f : (forall k, (k < n)%nat -> f k = 0) -> sm n f = 0.
Proof. intros H. rewrite (sm_ext n f (fun k => 0 * 0)) by (intros; rewrite H; auto; ring). rewrite sm_scale. ring. Qed.
Lemma sm_S n f : sm (S n) f = sm n f + f n.
Proof. unfold sm. rewrite seq_S, map_app. fold (sumQ (map f (seq 0 n))). change (fold_right Qcplus 0 (map f (seq 0 n) ++ map f [(0 + n)%nat])) with (sumQ (map f (seq 0 n) ++ map f [(0 + n)%nat])). rewrite sumQ_app. f_equal. unfold sumQ. cbn [map fold_right Nat.add]. change (ofZ 0) with 0. ring. Qed.
Lemma sm_first n f : sm (S n) f = f 0%nat + sm n (fun k => f (S k)).
Proof. induction n as [|n IH]; [unfold sm; cbn [map seq fold_right]; ring|]. rewrite sm_S, IH, (sm_S n). ring. Qed.
Lemma sm_swap m n (f : nat -> nat -> Qc) : sm m (fun i => sm n (fun j => f i j)) = sm n (fun j => sm m (fun i => f i j)).
Proof.
  induction m as [|m IH]; [symmetry; apply sm_0; reflexivity|]. rewrite sm_S, IH, <- sm_add. apply sm_ext. intros j _. now rewrite sm_S.
Qed.
Lemma sm_single n f k : (k < n)%nat -> (forall i, (i < n)%nat -> i <> k -> f i = 0) -> sm n f = f k.
Proof.
  induction n as [|n IH]; intros Hk H; [lia|]. rewrite sm_S. destruct (Nat.eq_dec k n) as [->|N].
  - rewrite sm_0 by (intros; apply H; lia). ring.
  - rewrite IH by (auto; lia). rewrite (H n) by lia. ring.
Qed.
Lemma sm_app p q f : sm (p + q) f = sm p f + sm q (fun k => f (p + k)%nat).
Proof. induction q as [|q IH]; [rewrite Nat.add_0_r; unfold sm at 3; cbn [map seq fold_right]; ring|]. rewrite Nat.add_succ_r, !sm_S, IH. ring. Qed.
Lemma sm_rev n f : sm n f = sm n (fun k => f (n - 1 - k)%nat).
Proof.
  induction n as [|n IH]; [reflexivity|]. rewrite sm_S, sm_first. rewrite Nat.sub_succ, !Nat.sub_0_r, Qcplus_comm. f_equal.
  rewrite IH. apply sm_ext. intros k Hk. f_equal. lia.
Qed.
Lemma sq_nonneg x : 0 <= sq x.
Proof. apply Qcle_this. unfold sq. qc_norm. nra. Qed.
Lemma sq_zero x : sq x = 0 -> x = 0. Proof. intros H. apply Qcmult_integral in H. tauto. Qed.
Lemma sm_nonneg n f : (forall k, (k < n)%nat -> 0 <= f k) -> 0 <= sm n f.
Proof. intros H. apply sumQ_nonneg. apply Forall_forall. intros x Hx. apply in_map_iff in Hx as (k & <- & Hk). apply in_seq in Hk. apply H. lia. Qed.
Lemma sm_sq_zero n f : sm n (fun k => sq (f k)) <= 0 -> forall k, (k < n)%nat -> f k = 0.
Proof.
  intros H k Hk. assert (F : Forall (fun x => x = 0) (map (fun k => sq (f k)) (seq 0 n))).
  { apply sumQ_zero; auto. apply Forall_forall. intros x Hx. apply in_map_iff in Hx as (j & <- & _). apply sq_nonneg. }
  rewrite Forall_forall in F. apply sq_zero. apply F, in_map_iff. exists k. split; auto. apply in_seq. lia.
Qed.

(** * Vectors *)
Lemma at_vec u i : vec_at u i = at_ u i. Proof. reflexivity. Qed.
Lemma dot_sm m u v : dot m u v = sm m (fun i => at_ u i * at_ v i). Proof. reflexivity. Qed.
Lemma axpy_length m u t v : length (axpy m u t v) = m. Proof. unfold axpy. now rewrite map_length, seq_length. Qed.
Lemma axpy_at m u t v i : (i < m)%nat -> at_ (axpy m u t v) i = at_ u i - t * at_ v i.
Proof. intros H. unfold axpy, at_. now rewrite nth_map_seq. Qed.
Lemma comb_length m cols : forall x, length (comb m cols x) = m.
Proof. destruct cols; intros x; cbn [comb]; [apply repeat_length|apply axpy_length]. Qed.
Lemma at_tl x j : at_ (tl x) j = at_ x (S j). Proof. destruct x as [|a x]; cbn; auto. now destruct j. Qed.
Lemma comb_at m cols : forall x i, (i < m)%nat -> at_ (comb m cols x) i = sm (length cols) (fun j => at_ x j * at_ (nth j cols []) i).
Proof.
  induction cols as [|a cols IH]; intros x i Hi; cbn [comb length].
  - unfold at_. rewrite nth_repeat. reflexivity.
  - rewrite axpy_at, IH, sm_first by auto. cbn [nth]. rewrite (sm_ext _ (fun k => at_ (tl x) k * _) (fun k => at_ x (S k) * at_ (nth k cols []) i)) by (intros; now rewrite at_tl). unfold vec_at, at_. ring.
Qed.
Lemma dot_comm m u v : dot m u v = dot m v u. Proof. rewrite !dot_sm. apply sm_ext. intros; ring. Qed.
Lemma dot_axpy m u t v w : dot m (axpy m u t v) w = dot m u w - t * dot m v w.
Proof. rewrite !dot_sm, <- sm_scale, <- sm_sub. apply sm_ext. intros i Hi. rewrite axpy_at by auto. ring. Qed.
Lemma dot_comb m cols x w : dot m (comb m cols x) w = sm (length cols) (fun j => at_ x j * dot m (nth j cols []) w).
Proof.
  rewrite dot_sm. rewrite (sm_ext m _ (fun i => sm (length cols) (fun j => at_ x j * (at_ (nth j cols []) i * at_ w i)))).
  - rewrite sm_swap. apply sm_ext. intros j _. now rewrite sm_scale.
  - intros i Hi. rewrite comb_at by auto. rewrite Qcmult_comm, <- sm_scale. apply sm_ext. intros; ring.
Qed.
Lemma dot_ext m u u' v v' : (forall i, (i < m)%nat -> at_ u i = at_ u' i) -> (forall i, (i < m)%nat -> at_ v i = at_ v' i) -> dot m u v = dot m u' v'.
Proof. intros H H'. rewrite !dot_sm. apply sm_ext. intros i Hi. now rewrite H, H'. Qed.
Lemma dot_self_zero m u : dot m u u = 0 -> forall i, (i < m)%nat -> at_ u i = 0.
Proof. intros H. apply sm_sq_zero. change (sm m (fun k => sq (at_ u k))) with (dot m u u). rewrite H. apply Qcle_refl. Qed.
Lemma dot_nonneg m u : 0 <= dot m u u. Proof. apply sm_nonneg. intros. apply sq_nonneg. Qed.
Lemma project_length m cols : forall b, length (project m cols b) = length cols.
Proof. induction cols as [|a cols IH]; intros b; cbn [project length]; auto. Qed.
(** The residual is orthogonal to every column. *)
Lemma project_orth m cols : forall b j, (j < length cols)%nat -> dot m (axpy m b 1 (comb m cols (project m cols b))) (nth j cols []) = 0.
Proof.
  induction cols as [|a cols IH]; intros b j Hj; [cbn in Hj; lia|].
  cbn [project]. set (ra := axpy m a 1 (comb m cols (project m cols a))). set (t := if Qceqb (dot m ra ra) 0 then 0 else dot m b ra / dot m ra ra).
  cbn [comb tl]. set (y := project m cols (axpy m b t a)). set (b' := axpy m b t a). set (r' := axpy m b' 1 (comb m cols y)).
  assert (Er : forall w, dot m (axpy m b 1 (axpy m (comb m cols y) (- vec_at (t :: y) 0) a)) w = dot m r' w).
  { intros w. unfold r', b'. rewrite !dot_axpy. unfold vec_at. cbn [nth]. ring. }
  rewrite Er. assert (O : forall k, (k < length cols)%nat -> dot m r' (nth k cols []) = 0) by (intros k Hk; apply IH; auto).
  destruct j as [|j]; cbn [nth]; [|apply O; cbn in Hj; lia].
  assert (OC : forall x u, (forall k, (k < length cols)%nat -> dot m u (nth k cols []) = 0) -> dot m u (comb m cols x) = 0).
  { intros x u Hu. rewrite dot_comm, dot_comb. apply sm_0. intros k Hk. rewrite dot_comm, Hu by auto. ring. }
  assert (Ea : dot m r' a = dot m r' ra). { unfold ra. rewrite (dot_comm m r' (axpy _ _ _ _)), dot_axpy, (dot_comm m (comb _ _ _)), OC by exact O. rewrite (dot_comm m a). ring. }
  rewrite Ea. unfold r' at 1. rewrite dot_axpy. assert (Ra : forall k, (k < length cols)%nat -> dot m ra (nth k cols []) = 0) by (intros k Hk; apply IH; auto).
  rewrite (dot_comm m (comb _ _ _) ra), OC by exact Ra. unfold b'. rewrite dot_axpy.
  assert (Eaa : dot m a ra = dot m ra ra). { unfold ra at 2. rewrite dot_axpy, (dot_comm m (comb _ _ _) ra), OC by exact Ra. ring. }
  rewrite Eaa. unfold t. destruct (Qceqb (dot m ra ra) 0) eqn:E.
  - apply Qceqb_spec in E. rewrite dot_comm. rewrite (dot_sm m ra b). rewrite sm_0; [ring|]. intros k Hk. rewrite (dot_self_zero m ra E k Hk). ring.
  - assert (N : dot m ra ra <> 0) by (intros Z; apply Qceqb_spec in Z; congruence). field. exact N.
Qed.
(** * Least squares *)
Lemma transpose_length n a : length (transpose n a) = n. Proof. unfold transpose. now rewrite map_length, seq_length. Qed.
Lemma transpose_at n a i j : (j < n)%nat -> (i < length a)%nat -> at_ (nth j (transpose n a) []) i = entry a i j.
Proof. intros Hj Hi. unfold transpose. rewrite nth_map_seq by auto. cbn [Nat.add]. unfold at_, entry, at_. now rewrite (map_nth_lt _ _ _ []). Qed.
Lemma comb_transpose n a x i : (i < length a)%nat -> at_ (comb (length a) (transpose n a) x) i = sm n (fun j => entry a i j * at_ x j).
Proof. intros Hi. rewrite comb_at, transpose_length by auto. apply sm_ext. intros j Hj. rewrite transpose_at by auto. ring. Qed.
Lemma dot_row_transpose n a u j : (j < n)%nat -> dot (length a) u (nth j (transpose n a) []) = sm (length a) (fun i => at_ u i * entry a i j).
Proof. intros Hj. rewrite dot_sm. apply sm_ext. intros i Hi. now rewrite transpose_at. Qed.
(** Normal equations. *)
Definition normal_eq (n : nat) (a : list (list Qc)) (b x : list Qc) : Prop :=
  forall j, (j < n)%nat -> sm (length a) (fun i => (at_ b i - sm n (fun k => entry a i k * at_ x k)) * entry a i j) = 0.
Lemma project_normal n a b : normal_eq n a b (project (length a) (transpose n a) b).
Proof.
  intros j Hj. pose proof (project_orth (length a) (transpose n a) b j) as H. rewrite transpose_length in H. specialize (H Hj). rewrite dot_row_transpose in H by auto. rewrite <- H. apply sm_ext. intros i Hi.
  rewrite axpy_at, comb_transpose by auto. ring.
Qed.
Lemma normal_pyth n a b x y : length b = length a -> normal_eq n a b x ->
  cost n a b y = cost n a b x + sm (length a) (fun i => sq (sm n (fun j => entry a i j * (at_ y j - at_ x j)))).
Proof.
  intros L H. unfold cost. rewrite L.
  assert (C : sm (length a) (fun i => (at_ b i - sm n (fun k => entry a i k * at_ x k)) * sm n (fun j => entry a i j * (at_ y j - at_ x j))) = 0).
  { rewrite (sm_ext _ _ (fun i => sm n (fun j => (at_ y j - at_ x j) * ((at_ b i - sm n (fun k => entry a i k * at_ x k)) * entry a i j)))) by (intros i _; rewrite <- sm_scale; apply sm_ext; intros; ring).
    rewrite sm_swap. apply sm_0. intros j Hj. rewrite sm_scale, (H j Hj). ring. }
  transitivity (sm (length a) (fun i => sq (sm n (fun j => entry a i j * at_ x j) - at_ b i)) + sm (length a) (fun i => sq (sm n (fun j => entry a i j * (at_ y j - at_ x j)))) + (- (1 + 1)) * sm (length a) (fun i => (at_ b i - sm n (fun k => entry a i k * at_ x k)) * sm n (fun j => entry a i j * (at_ y j - at_ x j)))).
  - rewrite <- sm_scale, <- !sm_add. apply sm_ext. intros i _.
    assert (E : sm n (fun j => entry a i j * at_ y j) = sm n (fun j => entry a i j * at_ x j) + sm n (fun j => entry a i j * (at_ y j - at_ x j))) by (rewrite <- sm_add; apply sm_ext; intros; ring).
    rewrite E. unfold sq. ring.
  - rewrite C. ring.
Qed.
Lemma Qc_add_nonneg x y : 0 <= y -> x <= x + y. Proof. intros H. apply Qcle_this. qlra. Qed.
Lemma sm_sq_nonneg n f : 0 <= sm n (fun i => sq (f i)). Proof. apply sm_nonneg. intros. apply sq_nonneg. Qed.
Lemma normal_minimal n a b x y : length b = length a -> normal_eq n a b x -> cost n a b x <= cost n a b y.
Proof. intros L H. rewrite (normal_pyth n a b x y L H). apply Qc_add_nonneg, sm_sq_nonneg. Qed.
Lemma normal_same n a b x y : length b = length a -> normal_eq n a b x -> cost n a b y <= cost n a b x ->
  forall i, (i < length a)%nat -> sm n (fun j => entry a i j * at_ y j) = sm n (fun j => entry a i j * at_ x j).
Proof.
  intros L H C i Hi. rewrite (normal_pyth n a b x y L H) in C. assert (Z : sm (length a) (fun i => sq (sm n (fun j => entry a i j * (at_ y j - at_ x j)))) <= 0) by (revert C; generalize (sm (length a) (fun i => sq (sm n (fun j => entry a i j * (at_ y j - at_ x j))))); intros q C; apply Qcle_this in C; apply Qcle_this; qlra).
  pose proof (sm_sq_zero _ _ Z i Hi) as E. cbn beta in E. transitivity (sm n (fun j => entry a i j * at_ x j) + sm n (fun j => entry a i j * (at_ y j - at_ x j))); [rewrite <- sm_add; apply sm_ext; intros; ring|]. rewrite E. ring.
Qed.
(** The vector returned by lstsq. *)
Definition min_norm_vec (n : nat) (a : list (list Qc)) (b : list Qc) : list Qc := comb n a (project n a (project (length a) (transpose n a) b)).
Lemma lstsq_eq n a b : length a = length b -> exists r, lstsq n a b = Ok (min_norm_vec n a b, r) /\ (r = [] \/ r = cons (ssr a (min_norm_vec n a b) b) nil).
Proof. intros L. unfold lstsq. rewrite (proj2 (Nat.eqb_eq _ _) L). cbn [negb]. eexists. split; [reflexivity|]. destruct (_ && _); auto. Qed.
Lemma min_norm_length n a b : length (min_norm_vec n a b) = n. Proof. apply comb_length. Qed.
Lemma min_norm_same n a b i : matrix (length a) n a -> (i < length a)%nat ->
  sm n (fun j => entry a i j * at_ (min_norm_vec n a b) j) = sm n (fun j => entry a i j * at_ (project (length a) (transpose n a) b) j).
Proof.
  intros (_ & F) Hi. set (x0 := project (length a) (transpose n a) b). pose proof (project_orth n a x0 i Hi) as H. rewrite dot_sm in H.
  transitivity (sm n (fun j => entry a i j * at_ x0 j) - sm n (fun k => at_ (axpy n x0 1 (comb n a (project n a x0))) k * at_ (nth i a []) k)); [|rewrite H; ring].
  rewrite <- sm_sub. apply sm_ext. intros j Hj. rewrite axpy_at by auto. unfold min_norm_vec. fold x0. unfold entry. ring.
Qed.
Lemma min_norm_normal n a b : matrix (length a) n a -> normal_eq n a b (min_norm_vec n a b).
Proof.
  intros M j Hj. rewrite <- (project_normal n a b j Hj). apply sm_ext. intros i Hi. now rewrite min_norm_same.
Qed.
Lemma min_norm_least n a b : matrix (length a) n a -> length b = length a -> least_squares_solution n a b (min_norm_vec n a b).
Proof. intros M L. split; [apply min_norm_length|]. intros y _. apply normal_minimal; auto. now apply min_norm_normal. Qed.
(** Pythagoras for the norm. *)
Lemma min_norm_pyth n a b y : matrix (length a) n a -> length b = length a -> cost n a b y <= cost n a b (min_norm_vec n a b) ->
  norm2 n y = norm2 n (min_norm_vec n a b) + sm n (fun j => sq (at_ y j - at_ (min_norm_vec n a b) j)).
Proof.
  intros M L C. set (x := min_norm_vec n a b) in *. pose proof (normal_same n a b x y L (min_norm_normal n a b M) C) as S.
  assert (O : sm n (fun j => at_ x j * (at_ y j - at_ x j)) = 0).
  { set (z := project n a (project (length a) (transpose n a) b)). rewrite (sm_ext n _ (fun j => sm (length a) (fun i => at_ z i * (entry a i j * (at_ y j - at_ x j))))).
    - rewrite sm_swap. apply sm_0. intros i Hi. rewrite sm_scale. rewrite (sm_ext n _ (fun j => entry a i j * at_ y j - entry a i j * at_ x j)) by (intros; ring). rewrite sm_sub, S by auto. ring.
    - intros j Hj. unfold x at 1. unfold min_norm_vec. fold z. rewrite comb_at by auto. rewrite Qcmult_comm, <- sm_scale. apply sm_ext. intros i _. unfold entry. ring. }
  unfold norm2. transitivity (sm n (fun j => sq (at_ x j)) + sm n (fun j => sq (at_ y j - at_ x j)) + (1 + 1) * sm n (fun j => at_ x j * (at_ y j - at_ x j))); [|rewrite O; ring].
  rewrite <- sm_scale, <- !sm_add. apply sm_ext. intros. unfold sq. ring.
Qed.
Lemma min_norm_min n a b y : matrix (length a) n a -> length b = length a -> least_squares_solution n a b y -> norm2 n (min_norm_vec n a b) <= norm2 n y.
Proof. intros M L (Ly & H). rewrite (min_norm_pyth n a b y M L (H _ (min_norm_length n a b))). apply Qc_add_nonneg, sm_sq_nonneg. Qed.
Lemma min_norm_unique n a b y : matrix (length a) n a -> length b = length a -> least_squares_solution n a b y -> norm2 n y <= norm2 n (min_norm_vec n a b) -> y = min_norm_vec n a b.
Proof.
  intros M L (Ly & H) N. rewrite (min_norm_pyth n a b y M L (H _ (min_norm_length n a b))) in N.
  apply (nth_ext_def 0); [now rewrite min_norm_length|]. intros j Hj. rewrite Ly in Hj.
  assert (Z : sm n (fun j => sq (at_ y j - at_ (min_norm_vec n a b) j)) <= 0) by (revert N; generalize (sm n (fun j => sq (at_ y j - at_ (min_norm_vec n a b) j))); intros q N; apply Qcle_this in N; apply Qcle_this; qlra).
  pose proof (sm_sq_zero _ _ Z j Hj) as E. cbn beta in E. unfold at_ in E. transitivity ((nth j y 0 - nth j (min_norm_vec n a b) 0) + nth j (min_norm_vec n a b) 0); [ring|rewrite E; ring].
Qed.
Lemma independent_unique n a x y : independent n a -> length x = n -> length y = n ->
  (forall i, (i < length a)%nat -> sm n (fun j => entry a i j * at_ y j) = sm n (fun j => entry a i j * at_ x j)) -> y = x.
Proof.
  intros I Lx Ly H. set (z := axpy n y 1 x). assert (Z : z = repeat 0 n).
  { apply I; [apply axpy_length|]. intros i Hi. rewrite (sm_ext n _ (fun j => entry a i j * at_ y j - entry a i j * at_ x j)) by (intros j Hj; unfold z; rewrite axpy_at by auto; ring). rewrite sm_sub, H by auto. ring. }
  apply (nth_ext_def 0); [congruence|]. intros j Hj. assert (E : at_ z j = 0) by (rewrite Z; unfold at_; apply nth_repeat). unfold z in E. rewrite axpy_at in E by lia. unfold at_ in E. transitivity ((nth j y 0 - 1 * nth j x 0) + nth j x 0); [ring|rewrite E; ring].
Qed.
