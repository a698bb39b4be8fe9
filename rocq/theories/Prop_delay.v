(** C48-C49: fractional delay filters and oversampling. *)
From Coq Require Import Reals Lra Lia String.
From Verif Require Import Py B_list M_delay S_delay P_delay.
Import List.
Open Scope R_scope.

(** C48: Lagrange taps of order 1 to 20 sum to one. *)
Theorem C48_sum_one : forall n alpha forward, (1 <= n <= 20)%nat ->
  exists l, dig_delay_lagrange_coeffs n alpha forward = Ok (map Some l) /\ length l = S n /\ sum_R l = 1.
Proof.
  intros n alpha fw H. exists (map (fun k => basis (nodes n fw) k alpha) (seq 0 (S n))). rewrite map_map, map_length, seq_length. split; [now apply lagrange_basis|]. split; auto.
  pose proof (lagrange_exact n fw [1] 0 alpha ltac:(cbn; lia)) as E. cbn [peval] in E. rewrite Rmult_0_r, Rplus_0_r in E. rewrite <- E. apply sum_R_ext. intros. ring.
Qed.
Print Assumptions C48_sum_one.
(** A delay by a whole number of samples inside the filter is the unit impulse at that tap; a delay of 0 is the
    impulse at tap n//2 (forward) or n//2 + n%2 (backward). *)
Theorem C48_integer_delay : forall n forward k, (1 <= n <= 20)%nat -> (k <= n)%nat ->
  dig_delay_lagrange_coeffs n (IZR (nth k (get_indices n forward) 0%Z)) forward = Ok (impulse (S n) k) /\
  nth (if forward then n / 2 else n / 2 + n mod 2)%nat (get_indices n forward) 1%Z = 0%Z.
Proof.
  intros n fw k H Hk. split.
  - rewrite lagrange_basis by auto. f_equal. apply map_ext_in. intros j I. apply in_seq in I. f_equal. rewrite indices_nth by auto. rewrite <- (nodes_nth n fw k Hk).
    destruct (Nat.eqb_spec j k) as [->|N]; [apply basis_self|apply basis_other; try (rewrite nodes_length; lia); auto]; try (rewrite nodes_length; lia); apply nodes_NoDup.
  - pose proof (Nat.div_mod n 2 ltac:(lia)). pose proof (Nat.mod_upper_bound n 2 ltac:(lia)).
    rewrite indices_eq, nth_map_seq by (destruct fw; lia). unfold first_index. pose proof (Nat2Z.inj_div n 2) as D. pose proof (Nat2Z.inj_mod n 2) as M. cbn [Z.of_nat Pos.of_succ_nat Pos.succ] in D, M.
    destruct fw; lia.
Qed.
Print Assumptions C48_integer_delay.
(** The taps evaluate every polynomial of degree at most [n] exactly between the samples. *)
Theorem C48_exact_on_polynomials : forall n alpha forward (p : list R) x0, (1 <= n <= 20)%nat -> (length p <= S n)%nat ->
  exists l, dig_delay_lagrange_coeffs n alpha forward = Ok (map Some l) /\
    sum_R (map2 (fun c i => c * peval p (x0 + IZR i)) l (get_indices n forward)) = peval p (x0 + alpha).
Proof.
  intros n alpha fw p x0 H L. exists (map (fun k => basis (nodes n fw) k alpha) (seq 0 (S n))). rewrite map_map. split; [now apply lagrange_basis|].
  rewrite <- (lagrange_exact n fw p x0 alpha L). rewrite indices_eq. f_equal. generalize (seq 0 (S n)). induction l as [|k l IH]; cbn [map map2]; [reflexivity|]. now rewrite IH.
Qed.
Print Assumptions C48_exact_on_polynomials.
(** Oversampling the samples of such a polynomial gives the polynomial at every fractional instant. *)
Theorem C48_oversample : forall (p : list R) N osr order beta, (1 <= order <= 20)%nat -> (length p <= S order)%nat -> (1 <= osr)%nat -> (order <= N)%nat ->
  exists temp x2 x1, digital_oversample (poly_samples p N) osr order "lagrange" beta = Ok (temp, x2, x1) /\
    length temp = ((N - order) * osr)%nat /\ length x2 = length temp /\
    (forall t, (t < length temp)%nat -> nth t x2 0 = INR t / INR osr /\ nth t temp None = Some (peval p (INR (order / 2) + INR t / INR osr))).
Proof.
  intros p N osr order beta H L Ho Hn. assert (LS : length (poly_samples p N) = N) by (unfold poly_samples; now rewrite map_length, seq_length).
  assert (Pos : 0 < INR osr) by (apply lt_0_INR; lia).
  destruct (oversample_spec (poly_samples p N) osr order "lagrange" beta (fun j => map (fun k => Some (basis (nodes order true) k (INR j / INR osr))) (seq 0 (S order)))) as (temp & E & Lt & R0 & Rj); auto.
  - lia.
  - right. intros E. rewrite E in LS. cbn in LS. lia.
  - intros j _. split; [|now rewrite map_length, seq_length]. unfold get_dd_coeffs. cbn [String.eqb Ascii.eqb Bool.eqb]. now apply lagrange_basis.
  - rewrite LS in *. exists temp. do 2 eexists. split; [exact E|]. split; [exact Lt|]. rewrite map_length, seq_length, Lt. split; auto. intros t Ht. rewrite nth_map_seq by auto. split; [reflexivity|].
    rewrite (Nat.div_mod t osr) by lia. set (r := (t / osr)%nat). set (j := (t mod osr)%nat).
    assert (Hj : (j < osr)%nat) by (apply Nat.mod_upper_bound; lia). assert (Hr : (r < N - order)%nat) by (apply Nat.div_lt_upper_bound; lia).
    rewrite plus_INR, mult_INR, (Nat.mul_comm osr r). destruct (Nat.eq_dec j 0) as [->|Nj].
    + rewrite Nat.add_0_r, R0 by auto. assert (order / 2 <= order)%nat by (apply Nat.div_le_upper_bound; lia). unfold poly_samples. rewrite nth_map_seq by lia. cbn [Nat.add]. f_equal. f_equal. rewrite plus_INR. cbn [INR]. field. lra.
    + rewrite Rj by lia. rewrite row_lagrange by lia. f_equal. f_equal. rewrite plus_INR. field. lra.
Qed.
Print Assumptions C48_oversample.
(** Finding: from order 21 the integer denominators overflow 64 bits; the taps no longer sum to one. *)
Theorem C48_order21_refuted : exists l, dig_delay_lagrange_coeffs 21 (1 / 2) true = Ok (map Some l) /\ sum_R l <> 1.
Proof.
  set (w := fun k => IZR (wrap64 (den 21 k))).
  set (l := map (fun k => prodR (map (fun x => 1 / 2 - x) (drop_at k (nodes 21 true))) / w k) (seq 0 22)).
  exists l. split.
  - rewrite lagrange_coeffs by lia. f_equal. unfold l. rewrite map_map. apply map_ext_in. intros k I. unfold ndiv. destruct (Req_EM_T _ 0) as [E|E]; auto.
    exfalso. apply eq_IZR in E. revert E. assert (C : forallb (fun k => negb (wrap64 (den 21 k) =? 0)%Z) (seq 0 22) = true) by (vm_compute; reflexivity).
    rewrite forallb_forall in C. specialize (C k I). intros E. rewrite E in C. discriminate.
  - pose proof (lagrange_exact 21 true [1] 0 (1 / 2) ltac:(cbn; lia)) as E. cbn [peval] in E. rewrite Rmult_0_r, Rplus_0_r in E.
    assert (D : sum_R l - sum_R (map (fun k => basis (nodes 21 true) k (1 / 2) * 1) (seq 0 22)) <> 0).
    { assert (F : forall k, In k (seq 0 22) -> k <> 0%nat -> k <> 21%nat -> wrap64 (den 21 k) = den 21 k).
      { intros k I N0 N1. assert (C : forallb (fun k => (wrap64 (den 21 k) =? den 21 k)%Z) (seq 1 20) = true) by (vm_compute; reflexivity).
        rewrite forallb_forall in C. apply Z.eqb_eq, C, in_seq. apply in_seq in I. lia. }
      unfold l. rewrite seq_S. change (seq 0 21) with (0%nat :: seq 1 20). cbn [Nat.add app]. rewrite !map_cons, !map_app. cbn [map].
      set (u := map _ (seq 1 20)). set (v := map (fun k => basis _ k _ * 1) (seq 1 20)).
      assert (UV : u = v) by (apply map_ext_in; intros k I; apply in_seq in I; unfold w; rewrite F by (rewrite ?in_seq; lia); unfold basis; rewrite den_basis by lia; ring).
      rewrite UV. clearbody v. assert (S : forall a v b, sum_R (a :: v ++ [b]) = a + sum_R v + b).
      { intros a v0 b. cbn [sum_R fold_right]. fold (sum_R (v0 ++ [b])). replace (sum_R (v0 ++ [b])) with (sum_R v0 + b); [ring|]. induction v0; cbn [app sum_R fold_right] in *; [ring|]. fold (sum_R v0) (sum_R (v0 ++ [b])). rewrite <- IHv0. ring. }
      rewrite !S. unfold basis. rewrite !den_basis by lia. unfold w.
      change (wrap64 (den 21 0)) with (4249290049419214848)%Z. change (wrap64 (den 21 21)) with (-4249290049419214848)%Z.
      change (den 21 0) with (-51090942171709440000)%Z. change (den 21 21) with (51090942171709440000)%Z.
      unfold nodes. change (get_indices 21 true) with [-10; -9; -8; -7; -6; -5; -4; -3; -2; -1; 0; 1; 2; 3; 4; 5; 6; 7; 8; 9; 10; 11]%Z.
      cbn [map drop_at firstn skipn app prodR fold_right]. intros X. lra. }
    intros X. apply D. rewrite X. rewrite (sum_R_ext _ (fun k => basis (nodes 21 true) k (1 / 2) * (1 + (0 + IZR (first_index 21 true + Z.of_nat k)) * 0)) (seq 0 22)) by (intros; ring). rewrite E. ring.
Qed.
Print Assumptions C48_order21_refuted.
(** Finding: order 0 is refused by the Lagrange method. *)
Theorem C48_order0 : forall alpha forward, dig_delay_lagrange_coeffs 0 alpha forward = Raise ValueError.
Proof. reflexivity. Qed.
Print Assumptions C48_order0.
Example C48_case :
  dig_delay_lagrange_coeffs 2 (1 / 2) true = Ok [Some (-1 / 8); Some (3 / 4); Some (3 / 8)] /\
  get_indices 3 true = [-1; 0; 1; 2]%Z /\ get_indices 3 false = [-2; -1; 0; 1]%Z /\
  poly_samples [1; -2; 1] 3 = [Some 1; Some 0; Some 1] /\ (length [1; -2; 1]%R <= 3)%nat.
Proof.
  split; [|split; [reflexivity|split; [reflexivity|split; [|cbn; lia]]]].
  - rewrite lagrange_basis by lia. f_equal. cbn [seq map]. unfold basis, nodes. change (get_indices 2 true) with [-1; 0; 1]%Z. cbn [map nth drop_at firstn skipn app prodR fold_right].
    apply (f_equal2 cons); [apply f_equal; field|]. apply (f_equal2 cons); [apply f_equal; field|]. apply (f_equal2 cons); [apply f_equal; field|reflexivity].
  - unfold poly_samples. cbn [map seq peval INR].
    apply (f_equal2 cons); [apply f_equal; ring|]. apply (f_equal2 cons); [apply f_equal; ring|]. apply (f_equal2 cons); [apply f_equal; ring|reflexivity].
Qed.

Lemma sinc_even t : sinc (- t) = sinc t.
Proof. unfold sinc. destruct (Req_EM_T (- t) 0), (Req_EM_T t 0); try lra; auto. replace (PI * - t) with (- (PI * t)) by ring. rewrite sin_neg. field. split; auto. apply PI_neq0. Qed.
Lemma seq_as_map r n : seq r n = map (fun i => (r + i)%nat) (seq 0 n).
Proof. revert r. induction n as [|n IH]; intros r; [reflexivity|]. cbn [seq map]. rewrite (IH (S r)), (IH 1%nat), map_map. f_equal; [lia|]. apply map_ext. intros. lia. Qed.
Lemma sum_kernel_int s m : forall n r, (r <= m < r + n)%nat -> sum_R (map (fun k => nth k s 0 * sinc (INR m - INR k)) (seq r n)) = nth m s 0.
Proof.
  assert (Z0 : forall n r, (forall k, (r <= k < r + n)%nat -> k <> m) -> sum_R (map (fun k => nth k s 0 * sinc (INR m - INR k)) (seq r n)) = 0).
  { induction n as [|n IH]; intros r H; [reflexivity|]. cbn [seq map sum_R fold_right]. fold (sum_R (map (fun k => nth k s 0 * sinc (INR m - INR k)) (seq (S r) n))). rewrite IH by (intros; apply H; lia).
    rewrite !INR_IZR_INZ, <- minus_IZR, sinc_int by (specialize (H r ltac:(lia)); lia). ring. }
  induction n as [|n IH]; intros r H; [lia|]. cbn [seq map sum_R fold_right]. fold (sum_R (map (fun k => nth k s 0 * sinc (INR m - INR k)) (seq (S r) n))).
  destruct (Nat.eq_dec r m) as [->|X]; [rewrite Z0 by (intros; lia); rewrite Rminus_diag_eq, sinc_0 by reflexivity; ring|]. rewrite IH by lia. rewrite !INR_IZR_INZ, <- minus_IZR, sinc_int by lia. ring.
Qed.
(** C49: for every supported method the result has (len - order) * osr samples, every osr-th of which is an original
    sample; the other samples are the fractional delay filter at k/osr applied to the samples around. *)
Theorem C49_samples_kept : forall (s : list num) osr order method beta,
  (1 <= osr)%nat -> (order <= length s)%nat -> s <> [] ->
  method = "sinc"%string \/ method = "rcos"%string \/ (method = "lagrange"%string /\ (1 <= order)%nat) ->
  exists temp x2 x1, digital_oversample s osr order method beta = Ok (temp, x2, x1) /\
    length temp = ((length s - order) * osr)%nat /\ length x2 = length temp /\
    (forall r, (r < length s - order)%nat -> nth (r * osr) temp None = nth (order / 2 + r) s None) /\
    (forall r j, (r < length s - order)%nat -> (1 <= j < osr)%nat ->
       exists c, get_dd_coeffs method order (INR j / INR osr) true beta = Ok c /\ length c = S order /\
         nth (r * osr + j) temp None = row_value c s r) /\
    (forall t, (t < length temp)%nat -> nth t x2 0 = INR t / INR osr).
Proof.
  intros s osr order method beta Ho Hs Ne Hm.
  assert (C : forall alpha, exists c, get_dd_coeffs method order alpha true beta = Ok c /\ length c = S order).
  { intros alpha. destruct Hm as [->|[->|[-> H1]]].
    - eexists. split; [reflexivity|]. unfold dig_delay_sinc_coeffs. now rewrite map_length, indices_length.
    - eexists. split; [reflexivity|]. unfold dig_delay_rcos_coeffs. now rewrite map_length, indices_length.
    - eexists. split; [unfold get_dd_coeffs; cbn [String.eqb Ascii.eqb Bool.eqb]; now apply lagrange_coeffs|]. now rewrite map_length, seq_length. }
  set (cf := fun j => match get_dd_coeffs method order (INR j / INR osr) true beta with Ok c => c | Raise _ => [] end).
  destruct (oversample_spec s osr order method beta cf Ho Hs (or_intror Ne)) as (temp & E & Lt & R0 & Rj).
  { intros j _. unfold cf. destruct (C (INR j / INR osr)) as (c & -> & L). auto. }
  exists temp. do 2 eexists. split; [exact E|]. split; [exact Lt|]. rewrite map_length, seq_length, Lt. split; auto. split; auto. split.
  - intros r j Hr Hj. destruct (C (INR j / INR osr)) as (c & Ec & Lc). exists c. split; auto. split; auto. rewrite Rj by auto. unfold cf. now rewrite Ec.
  - intros t Ht. now rewrite nth_map_seq.
Qed.
Print Assumptions C49_samples_kept.
(** Refusals: input shorter than the order, osr = 0, unknown method (which is only noticed when osr > 1). *)
Theorem C49_errors : forall (s : list num) osr order method beta,
  ((length s < order)%nat -> digital_oversample s osr order method beta = Raise ValueError) /\
  ((order <= length s)%nat -> digital_oversample s 0 order method beta = Raise IndexError) /\
  (method <> "sinc"%string -> method <> "rcos"%string -> method <> "lagrange"%string -> (order <= length s)%nat -> (2 <= osr)%nat ->
     digital_oversample s osr order method beta = Raise AttributeError) /\
  ((order <= length s)%nat -> exists temp x2 x1, digital_oversample s 1 order method beta = Ok (temp, x2, x1)).
Proof.
  intros s osr order method beta. assert (Eo : (order / 2 + (order / 2 + order mod 2) = order)%nat) by (pose proof (Nat.div_mod order 2 ltac:(lia)); lia).
  unfold digital_oversample. rewrite Eo. split; [intros H; apply Nat.ltb_lt in H; now rewrite H|].
  split; [intros H; apply Nat.ltb_ge in H; now rewrite H|]. split.
  - intros N1 N2 N3 H Ho. apply Nat.ltb_ge in H. rewrite H. replace (osr =? 0)%nat with false by (symmetry; apply Nat.eqb_neq; lia).
    destruct (osr - 1)%nat as [|k] eqn:E; [lia|]. cbn [seq map map_res]. unfold get_dd_coeffs.
    apply String.eqb_neq in N1, N2, N3. rewrite N1, N2, N3. reflexivity.
  - intros H. apply Nat.ltb_ge in H. rewrite H. cbn [Nat.eqb Nat.sub seq map map_res bind]. eauto.
Qed.
Print Assumptions C49_errors.
(** The sinc and raised cosine taps for zero delay are the unit impulse; a raised cosine tap is a number exactly when
    its denominator is not zero. *)
Theorem C49_zero_delay : forall (n : nat) (forward : bool) (beta : R),
  let k0 := (if forward then n / 2 else n / 2 + n mod 2)%nat in
  dig_delay_sinc_coeffs n 0 forward = impulse (S n) k0 /\
  (forall alpha i, (i <= n)%nat -> nth i (dig_delay_rcos_coeffs n alpha forward beta) (Some 0) = None <->
     (2 * beta * (IZR (nth i (get_indices n forward) 0%Z) - alpha)) ^ 2 = 1) /\
  ((forall i, (i <= n)%nat -> (2 * beta * IZR (nth i (get_indices n forward) 0%Z)) ^ 2 <> 1) -> dig_delay_rcos_coeffs n 0 forward beta = impulse (S n) k0).
Proof.
  intros n fw beta k0.
  assert (K : forall i, (i <= n)%nat -> (nth i (get_indices n fw) 0%Z = 0%Z <-> i = k0)).
  { intros i Hi. rewrite indices_nth by auto. unfold first_index, k0. pose proof (Nat2Z.inj_div n 2) as D. pose proof (Nat2Z.inj_mod n 2) as M. cbn [Z.of_nat Pos.of_succ_nat Pos.succ] in D, M. destruct fw; lia. }
  assert (G : forall f : Z -> num, (forall i, (i <= n)%nat -> f (nth i (get_indices n fw) 0%Z) = Some (if (i =? k0)%nat then 1 else 0)) -> map f (get_indices n fw) = impulse (S n) k0).
  { intros f Hf. apply (nth_ext_def None); [unfold impulse; rewrite !map_length, seq_length, indices_length; auto|]. intros i Hi. rewrite map_length, indices_length in Hi.
    rewrite (map_nth_lt _ _ _ 0%Z) by (rewrite indices_length; auto). rewrite Hf by lia. unfold impulse. rewrite nth_map_seq by auto. reflexivity. }
  split; [|split].
  - apply G. intros i Hi. rewrite Rminus_0_r. f_equal. destruct (Nat.eqb_spec i k0) as [E|E]; [apply K in E; auto; rewrite E; apply sinc_0|]. apply sinc_int. intros X. apply K in X; auto.
  - intros alpha i Hi. unfold dig_delay_rcos_coeffs. rewrite (map_nth_lt _ _ _ 0%Z) by (rewrite indices_length; lia). unfold ndiv.
    set (v := (2 * beta * _) ^ 2). destruct (Req_EM_T (1 - v) 0); split; intros X; auto; try lra; discriminate.
  - intros H. apply G. intros i Hi. rewrite Rminus_0_r. unfold ndiv. specialize (H i Hi). destruct (Req_EM_T _ 0) as [X|X]; [exfalso; apply H; lra|]. f_equal.
    destruct (Nat.eqb_spec i k0) as [E|E].
    + apply K in E; auto. rewrite E. rewrite sinc_0, !Rmult_0_r, cos_0. field.
    + rewrite sinc_int by (intros Y; apply K in Y; auto). unfold Rdiv. ring.
Qed.
Print Assumptions C49_zero_delay.
(** A whole number [m] of samples: the impulse moves by [m], forward for positive [m]. *)
Theorem C49_integer_delay : forall (n k : nat) (m : Z) (forward : bool), (k <= n)%nat ->
  Z.of_nat k = (Z.of_nat (if forward then n / 2 else n / 2 + n mod 2) + m)%Z -> dig_delay_sinc_coeffs n (IZR m) forward = impulse (S n) k.
Proof.
  intros n k m fw Hk E. unfold dig_delay_sinc_coeffs. apply (nth_ext_def None); [unfold impulse; rewrite !map_length, seq_length, indices_length; auto|]. intros i Hi. rewrite map_length, indices_length in Hi.
  rewrite (map_nth_lt _ _ _ 0%Z) by (rewrite indices_length; auto). unfold impulse. rewrite nth_map_seq by auto. cbn [Nat.add]. f_equal. rewrite indices_nth, <- minus_IZR by lia.
  pose proof (Nat2Z.inj_div n 2) as D. pose proof (Nat2Z.inj_mod n 2) as M. cbn [Z.of_nat Pos.of_succ_nat Pos.succ] in D, M.
  destruct (Nat.eqb_spec i k) as [->|X]; [replace (first_index n fw + Z.of_nat k - m)%Z with 0%Z by (unfold first_index; destruct fw; lia); apply sinc_0|apply sinc_int; unfold first_index; destruct fw; lia].
Qed.
Print Assumptions C49_integer_delay.
(** The interpolated sequence is the sum of shifted kernels over the nearest samples, taken at the stated times. *)
Theorem C49_interpolation : forall (s : list R) osr order beta, (1 <= osr)%nat -> (order <= length s)%nat -> s <> [] ->
  (exists temp x2 x1, digital_oversample (map Some s) osr order "sinc" beta = Ok (temp, x2, x1) /\
    forall r j, (r < length s - order)%nat -> (j < osr)%nat ->
      nth (r * osr + j) temp None = Some (kernel_sum sinc s r (S order) (INR (order / 2 + r) + INR j / INR osr))) /\
  (exists temp x2 x1, digital_oversample (map Some s) osr order "rcos" beta = Ok (temp, x2, x1) /\
    forall r j, (r < length s - order)%nat -> (1 <= j < osr)%nat ->
      (forall k, (r <= k <= r + order)%nat -> (2 * beta * (INR (order / 2 + r) + INR j / INR osr - INR k)) ^ 2 <> 1) ->
      nth (r * osr + j) temp None = Some (kernel_sum (raised_cosine beta) s r (S order) (INR (order / 2 + r) + INR j / INR osr))).
Proof.
  intros s osr order beta Ho Hs Ne.
  assert (NE : map (@Some R) s <> []) by (destruct s; [congruence|discriminate]).
  assert (RW : forall (f : Z -> num) (p : R -> R) r alpha, (r + order < length s)%nat -> (forall i, (i <= order)%nat -> f (nth i (get_indices order true) 0%Z) = Some (p (INR (order / 2 + r) + alpha - INR (r + i)))) ->
    row_value (map f (get_indices order true)) (map Some s) r = Some (kernel_sum p s r (S order) (INR (order / 2 + r) + alpha))).
  { intros f p r alpha Hr Hf. unfold row_value, kernel_sum. rewrite map_length, indices_length, (seq_as_map r), map_map.
    unfold nsum, sum_R. rewrite <- nsum_some. f_equal. rewrite map_map. apply map_ext_in. intros i I. apply in_seq in I.
    rewrite (map_nth_lt _ _ _ 0%Z) by (rewrite indices_length; lia). rewrite (map_nth_lt _ _ _ 0) by lia. rewrite Hf by lia. cbn [nmul]. f_equal. ring. }
  assert (TI : forall r i alpha, (i <= order)%nat -> IZR (nth i (get_indices order true) 0%Z) - alpha = - (INR (order / 2 + r) + alpha - INR (r + i))).
  { intros r i alpha Hi. rewrite indices_nth by auto. unfold first_index. pose proof (Nat2Z.inj_div order 2) as DV. cbn [Z.of_nat Pos.of_succ_nat Pos.succ] in DV. rewrite <- DV, plus_IZR, opp_IZR, <- !INR_IZR_INZ, !plus_INR. ring. }
  split.
  - destruct (C49_samples_kept (map Some s) osr order "sinc" beta Ho) as (temp & x2 & x1 & E & Lt & _ & R0 & Rj & _); [now rewrite map_length|exact NE|auto|]. rewrite map_length in *. exists temp, x2, x1. split; [exact E|].
    intros r j Hr Hj. destruct j as [|j].
    + rewrite Nat.add_0_r, R0 by auto. pose proof (Nat.div_mod order 2 ltac:(lia)) as DM. rewrite (map_nth_lt _ _ _ 0) by lia. f_equal. change (INR 0) with 0. unfold kernel_sum.
      replace (0 / INR osr) with 0 by (unfold Rdiv; ring). rewrite Rplus_0_r. rewrite sum_kernel_int with (m := (order / 2 + r)%nat); auto; lia.
    + destruct (Rj r (S j) Hr ltac:(lia)) as (c & Ec & Lc & ->). unfold get_dd_coeffs in Ec. cbn [String.eqb Ascii.eqb Bool.eqb] in Ec. injection Ec as <-. apply RW; [lia|]. intros i Hi. rewrite (TI r) by auto. now rewrite sinc_even.
  - destruct (C49_samples_kept (map Some s) osr order "rcos" beta Ho) as (temp & x2 & x1 & E & Lt & _ & R0 & Rj & _); [now rewrite map_length|exact NE|auto|]. rewrite map_length in *. exists temp, x2, x1. split; [exact E|].
    intros r j Hr Hj NS. destruct (Rj r j Hr Hj) as (c & Ec & Lc & ->). unfold get_dd_coeffs in Ec. cbn [String.eqb Ascii.eqb Bool.eqb] in Ec. injection Ec as <-. apply RW; [lia|]. intros i Hi. rewrite (TI r) by auto.
    set (t := INR (order / 2 + r) + INR j / INR osr - INR (r + i)). unfold ndiv, raised_cosine. replace ((2 * beta * - t) ^ 2) with ((2 * beta * t) ^ 2) by ring. replace (PI * beta * - t) with (- (PI * beta * t)) by ring. rewrite cos_neg, sinc_even.
    destruct (Req_EM_T _ 0) as [X|X]; [|reflexivity]. exfalso. apply (NS (r + i)%nat ltac:(lia)). fold t. lra.
Qed.
Print Assumptions C49_interpolation.
(** Finding: roll-off 1 with an even oversampling ratio, and the default roll-off 0.5 at zero delay, divide by zero:
    every interpolated sample of that phase is not a number. *)
Theorem C49_rcos_refuted :
  (forall s r h order, (1 <= order)%nat -> (r < length s - order)%nat -> (1 <= h)%nat -> exists temp x2 x1,
     digital_oversample s (2 * h) order "rcos" 1 = Ok (temp, x2, x1) /\ nth (r * (2 * h) + h) temp (Some 0) = None) /\
  nth 2 (dig_delay_rcos_coeffs 2 0 true 0.5) (Some 0) = None.
Proof.
  assert (NN : forall (l : list num) i, nth i l (Some 0) = None -> nsum l = None).
  { induction l as [|a l IH]; intros [|i] H; cbn [nth] in H; try discriminate; cbn [nsum fold_right]; fold (nsum l); [now rewrite H|]. rewrite (IH i H). now destruct a. }
  split.
  - intros s r h order Hn Hr Hh. destruct (C49_samples_kept s (2 * h) order "rcos" 1) as (temp & x2 & x1 & E & Lt & _ & _ & Hj & _); [lia|lia|intros ->; cbn in Hr; lia|auto|].
    exists temp, x2, x1. split; auto. destruct (Hj r h Hr ltac:(lia)) as (c & Ec & Lc & Hv). rewrite (nth_indep temp _ None) by (rewrite Lt; nia). rewrite Hv.
    assert (A : INR h / INR (2 * h) = 1 / 2) by (rewrite mult_INR; cbn [INR]; field; apply Rgt_not_eq, lt_0_INR; lia). rewrite A in Ec.
    injection Ec as <-. unfold row_value. set (c := dig_delay_rcos_coeffs _ _ _ _) in *.
    apply (NN _ (order / 2)%nat). assert (Hk : (order / 2 < S order)%nat) by (apply Nat.lt_succ_r, Nat.div_le_upper_bound; lia).
    rewrite nth_map_seq by lia. cbn [Nat.add].
    replace (nth (order / 2) c (Some 0)) with (@None R); [reflexivity|]. symmetry. destruct (C49_zero_delay order true 1) as (_ & I & _). apply I; [lia|].
    rewrite indices_nth by lia. unfold first_index. pose proof (Nat2Z.inj_div order 2) as D. cbn [Z.of_nat Pos.of_succ_nat Pos.succ] in D. replace (- (Z.of_nat order / 2) + Z.of_nat (order / 2))%Z with 0%Z by lia. field.
  - destruct (C49_zero_delay 2 true 0.5) as (_ & I & _). apply I; [lia|]. change (nth 2 (get_indices 2 true) 0%Z) with 1%Z. lra.
Qed.
Print Assumptions C49_rcos_refuted.
Example C49_case : exists temp x2 x1, digital_oversample [Some 1; Some 2; Some 5; Some 7] 2 2 "sinc" 0 = Ok (temp, x2, x1) /\
  nth 0 temp None = Some 2 /\ nth 2 temp None = Some 5 /\ length temp = 4%nat /\ x1 = [0; 1; 2]%Z.
Proof. do 3 eexists. split; [reflexivity|]. repeat split. Qed.
