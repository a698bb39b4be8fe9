(** Proofs about the fractional delay coefficients and the oversampler. *)
From Coq Require Import Reals Lra Lia String.
From Verif Require Import Py B_list M_delay S_delay.
Import List.
Open Scope R_scope.

(** Polynomials as coefficient lists. *)
Fixpoint padd (p q : list R) : list R := match p, q with [], _ => q | _, [] => p | a :: p, b :: q => (a + b) :: padd p q end.
Definition pscale (c : R) (p : list R) : list R := map (Rmult c) p.
(** Multiplication by [x - r]. *)
Definition plin (r : R) (p : list R) : list R := padd (0 :: p) (pscale (- r) p).
Lemma padd_eval p : forall q x, peval (padd p q) x = peval p x + peval q x.
Proof. induction p as [|a p IH]; intros [|b q] x; cbn [padd peval]; try ring. rewrite IH. ring. Qed.
Lemma padd_length p : forall q, length (padd p q) = Nat.max (length p) (length q).
Proof. induction p as [|a p IH]; intros [|b q]; cbn [padd length]; auto. now rewrite IH. Qed.
Lemma pscale_eval c p x : peval (pscale c p) x = c * peval p x.
Proof. induction p as [|a p IH]; cbn [pscale map peval]; [ring|]. fold (pscale c p). rewrite IH. ring. Qed.
Lemma pscale_length c p : length (pscale c p) = length p. Proof. apply map_length. Qed.
Lemma plin_eval r p x : peval (plin r p) x = (x - r) * peval p x.
Proof. unfold plin. rewrite padd_eval, pscale_eval. cbn [peval]. ring. Qed.
Lemma plin_length r p : length (plin r p) = S (length p).
Proof. unfold plin. rewrite padd_length, pscale_length. cbn [length]. lia. Qed.
(** Synthetic division. *)
Fixpoint pquot (p : list R) (r : R) : list R := match p with [] => [] | c :: p => match p with [] => [] | _ => peval p r :: pquot p r end end.
Lemma pquot_length p r : length (pquot p r) = (length p - 1)%nat.
Proof. induction p as [|a [|b p] IH]; auto. cbn [pquot] in *. cbn [length] in *. rewrite IH. lia. Qed.
Lemma pquot_eval p r x : peval p x = peval p r + (x - r) * peval (pquot p r) x.
Proof.
  induction p as [|a p IH]; [cbn; ring|]. destruct p as [|b p]; [cbn; ring|]. remember (b :: p) as q. cbn [peval]. rewrite IH. subst q.
  change (pquot (a :: b :: p) r) with (peval (b :: p) r :: pquot (b :: p) r). cbn [peval]. ring.
Qed.
(** A polynomial with at least as many distinct roots as coefficients is zero. *)
Lemma poly_roots rs : forall p, NoDup rs -> (length p <= length rs)%nat -> (forall r, In r rs -> peval p r = 0) -> forall x, peval p x = 0.
Proof.
  induction rs as [|r rs IH]; intros p ND L H x; [destruct p; [reflexivity|cbn in L; lia]|]. inversion ND; subst.
  rewrite (pquot_eval p r), H by now left. rewrite IH; [ring|auto|rewrite pquot_length; cbn in L; lia|].
  intros s Hs. assert (Ns : s <> r) by congruence. pose proof (pquot_eval p r s) as E. rewrite (H s), (H r) in E by (cbn; auto).
  assert (0 = (s - r) * peval (pquot p r) s) as E' by lra. symmetry in E'. apply Rmult_integral in E' as [E'|E']; auto. lra.
Qed.

(** Lagrange basis on a list of nodes. *)
Lemma drop_at_map {A B} (f : A -> B) k l : drop_at k (map f l) = map f (drop_at k l).
Proof. unfold drop_at. now rewrite map_app, firstn_map, skipn_map. Qed.
Lemma split_at {A} (d : A) k l : (k < length l)%nat -> l = firstn k l ++ nth k l d :: skipn (S k) l.
Proof. revert k. induction l as [|a l IH]; intros k H; cbn [length] in H; [lia|]. destruct k; cbn [firstn nth skipn app]; auto. f_equal. apply IH. lia. Qed.
Lemma drop_at_In {A} (d : A) k j l : (j < length l)%nat -> (k < length l)%nat -> j <> k -> In (nth j l d) (drop_at k l).
Proof.
  intros Hj Hk N. unfold drop_at. apply in_or_app. destruct (Nat.lt_ge_cases j k).
  - left. rewrite <- (nth_firstn d k) by auto. apply nth_In. rewrite firstn_length. lia.
  - right. replace j with (S k + (j - S k))%nat by lia. rewrite <- (nth_skipn d). apply nth_In. rewrite skipn_length. lia.
Qed.
Lemma drop_at_notIn {A} (d : A) k l : NoDup l -> (k < length l)%nat -> ~ In (nth k l d) (drop_at k l).
Proof. intros ND H. rewrite (split_at d k l H) in ND. now apply NoDup_remove_2 in ND. Qed.
Lemma drop_at_length {A} k (l : list A) : (k < length l)%nat -> length (drop_at k l) = (length l - 1)%nat.
Proof. intros H. unfold drop_at. rewrite app_length, firstn_length, skipn_length. lia. Qed.
Lemma prodR_zero l : In 0 l -> prodR l = 0.
Proof. induction l as [|a l IH]; [intros []|]. intros [->|I]; cbn [prodR fold_right]; [ring|]. fold (prodR l). rewrite IH by auto. ring. Qed.
Lemma prodR_nonzero l : ~ In 0 l -> prodR l <> 0.
Proof. induction l as [|a l IH]; cbn [prodR fold_right]; [lra|]. fold (prodR l). intros N E. apply Rmult_integral in E as [E|E]; [apply N; now left|]. apply IH in E; auto. intros I. apply N. now right. Qed.
Definition basis (xs : list R) (k : nat) (a : R) : R :=
  prodR (map (fun x => a - x) (drop_at k xs)) / prodR (map (fun x => nth k xs 0 - x) (drop_at k xs)).
Lemma basis_den xs k : NoDup xs -> (k < length xs)%nat -> prodR (map (fun x => nth k xs 0 - x) (drop_at k xs)) <> 0.
Proof.
  intros ND H. apply prodR_nonzero. intros I. apply in_map_iff in I as (x & E & I). assert (x = nth k xs 0) by lra. subst x. now apply drop_at_notIn in I.
Qed.
Lemma basis_self xs k : NoDup xs -> (k < length xs)%nat -> basis xs k (nth k xs 0) = 1.
Proof. intros ND H. unfold basis. field. now apply basis_den. Qed.
Lemma basis_other xs k j : NoDup xs -> (k < length xs)%nat -> (j < length xs)%nat -> j <> k -> basis xs k (nth j xs 0) = 0.
Proof.
  intros ND H Hj N. unfold basis. rewrite (prodR_zero (map _ _)); [unfold Rdiv; ring|]. apply in_map_iff. exists (nth j xs 0). split; [ring|now apply drop_at_In].
Qed.
Fixpoint pprod (rs : list R) : list R := match rs with [] => [1] | r :: rs => plin r (pprod rs) end.
Lemma pprod_eval rs x : peval (pprod rs) x = prodR (map (fun r => x - r) rs).
Proof. induction rs as [|r rs IH]; cbn [pprod map prodR fold_right]; [cbn; ring|]. rewrite plin_eval, IH. reflexivity. Qed.
Lemma pprod_length rs : length (pprod rs) = S (length rs).
Proof. induction rs as [|r rs IH]; cbn [pprod length]; auto. now rewrite plin_length, IH. Qed.
Definition psum (l : list (list R)) : list R := fold_right padd [] l.
Lemma psum_eval l x : peval (psum l) x = sum_R (map (fun p => peval p x) l).
Proof. induction l as [|p l IH]; cbn [psum fold_right map sum_R]; [reflexivity|]. rewrite padd_eval. fold (psum l). rewrite IH. reflexivity. Qed.
Lemma psum_length l n : Forall (fun p => (length p <= n)%nat) l -> (length (psum l) <= n)%nat.
Proof. induction 1; cbn [psum fold_right length]; [lia|]. rewrite padd_length. fold (psum l). lia. Qed.
Lemma sum_R_single (f : nat -> R) n m : (m < n)%nat -> (forall k, (k < n)%nat -> k <> m -> f k = 0) -> sum_R (map f (seq 0 n)) = f m.
Proof.
  intros H Z. assert (G : forall c s, (forall k, (s <= k < s + c)%nat -> k <> m -> f k = 0) -> sum_R (map f (seq s c)) = if ((s <=? m) && (m <? s + c))%nat then f m else 0).
  { induction c as [|c IH]; intros s Hs; cbn [seq map sum_R fold_right].
    - replace ((s <=? m) && (m <? s + 0))%nat with false; auto. symmetry. apply Bool.andb_false_iff. destruct (Nat.leb_spec s m); auto. right. apply Nat.ltb_ge. lia.
    - fold (sum_R (map f (seq (S s) c))). rewrite IH by (intros; apply Hs; lia). destruct (Nat.eq_dec s m) as [->|N].
      + replace (S m <=? m)%nat with false by (symmetry; apply Nat.leb_gt; lia). replace (m <=? m)%nat with true by (symmetry; apply Nat.leb_le; lia).
        replace (m <? m + S c)%nat with true by (symmetry; apply Nat.ltb_lt; lia). cbn [andb]. ring.
      + rewrite Hs by lia. replace (S s <=? m)%nat with (s <=? m)%nat by (destruct (Nat.leb_spec s m), (Nat.leb_spec (S s) m); auto; lia).
        replace (S s + c)%nat with (s + S c)%nat by lia. ring. }
  rewrite G by (intros; apply Z; lia). replace ((0 <=? m) && (m <? 0 + n))%nat with true; auto. symmetry. apply Bool.andb_true_iff. split; [apply Nat.leb_le|apply Nat.ltb_lt]; lia.
Qed.
Lemma sum_R_ext {A} (f g : A -> R) l : (forall x, In x l -> f x = g x) -> sum_R (map f l) = sum_R (map g l).
Proof. intros H. f_equal. now apply map_ext_in. Qed.
(** Interpolation is exact on polynomials. *)
Lemma interpolation xs p a : NoDup xs -> (length p <= length xs)%nat ->
  sum_R (map (fun k => basis xs k a * peval p (nth k xs 0)) (seq 0 (length xs))) = peval p a.
Proof.
  intros ND L. set (n := length xs).
  set (T := fun k => pscale (peval p (nth k xs 0) / prodR (map (fun x => nth k xs 0 - x) (drop_at k xs))) (pprod (drop_at k xs))).
  set (Q := padd (psum (map T (seq 0 n))) (pscale (-1) p)).
  assert (EQ : forall x, peval Q x = sum_R (map (fun k => basis xs k x * peval p (nth k xs 0)) (seq 0 n)) - peval p x).
  { intros x. unfold Q. rewrite padd_eval, psum_eval, pscale_eval, map_map. replace (-1 * peval p x) with (- peval p x) by ring. unfold Rminus. f_equal.
    apply sum_R_ext. intros k I. apply in_seq in I. unfold T. rewrite pscale_eval, pprod_eval. unfold basis. field. apply basis_den; auto. unfold n in *; lia. }
  assert (Z : forall x, peval Q x = 0).
  { apply (poly_roots xs); auto.
    - unfold Q. rewrite padd_length, pscale_length. apply Nat.max_lub; auto. apply psum_length, Forall_map, Forall_forall. intros k I. apply in_seq in I.
      unfold T. rewrite pscale_length, pprod_length, drop_at_length by (unfold n in *; lia). unfold n in *. lia.
    - intros r Hr. destruct (In_nth _ _ 0 Hr) as (m & Hm & <-). rewrite EQ.
      rewrite (sum_R_single (fun k => basis xs k (nth m xs 0) * peval p (nth k xs 0)) n m); auto.
      + rewrite basis_self by auto. ring.
      + intros k Hk N. rewrite basis_other by auto. ring. }
  specialize (Z a). rewrite EQ in Z. lra.
Qed.

(** Indices: [n + 1] consecutive integers from [first_index]. *)
Definition first_index (n : nat) (forward : bool) : Z := if forward then (- (Z.of_nat n / 2))%Z else (- (Z.of_nat n / 2) - Z.of_nat n mod 2)%Z.
Lemma indices_eq n fw : get_indices n fw = map (fun k => (first_index n fw + Z.of_nat k)%Z) (seq 0 (S n)).
Proof.
  unfold get_indices, first_index. pose proof (Z.div_mod (Z.of_nat n) 2 ltac:(lia)) as D. pose proof (Z.mod_pos_bound (Z.of_nat n) 2 ltac:(lia)).
  set (h := (Z.of_nat n / 2)%Z) in *. destruct (Z.eqb_spec (Z.of_nat n mod 2) 0) as [E|E].
  - rewrite E in *. replace (Z.to_nat (h + 1 - - h)) with (S n) by lia. destruct fw; apply map_ext; intros; lia.
  - assert (E1 : (Z.of_nat n mod 2 = 1)%Z) by lia. rewrite E1 in *. destruct fw.
    + replace (Z.to_nat (h + 2 - - h)) with (S n) by lia. reflexivity.
    + replace (Z.to_nat (h + 1 - (- h - 1))) with (S n) by lia. reflexivity.
Qed.
Definition nodes (n : nat) (fw : bool) : list R := map IZR (get_indices n fw).
Lemma indices_length n fw : length (get_indices n fw) = S n. Proof. now rewrite indices_eq, map_length, seq_length. Qed.
Lemma nodes_length n fw : length (nodes n fw) = S n. Proof. unfold nodes. now rewrite map_length, indices_length. Qed.
Lemma indices_nth n fw k : (k <= n)%nat -> nth k (get_indices n fw) 0%Z = (first_index n fw + Z.of_nat k)%Z.
Proof. intros H. rewrite indices_eq, nth_map_seq by lia. reflexivity. Qed.
Lemma nodes_nth n fw k : (k <= n)%nat -> nth k (nodes n fw) 0 = IZR (first_index n fw + Z.of_nat k).
Proof. intros H. unfold nodes. rewrite (map_nth_lt _ _ _ 0%Z) by (rewrite indices_length; lia). now rewrite indices_nth. Qed.
Lemma nodes_NoDup n fw : NoDup (nodes n fw).
Proof.
  unfold nodes. rewrite indices_eq, map_map. apply FinFun.Injective_map_NoDup; [|apply seq_NoDup]. intros a b E. apply eq_IZR in E. lia.
Qed.
(** The exact denominator of tap [k]. *)
Definition den (n k : nat) : Z := prodZ (drop_at k (map (fun j => (Z.of_nat k - Z.of_nat j)%Z) (seq 0 (S n)))).
Lemma den_eq n fw k : (k <= n)%nat -> prodZ (drop_at k (map (fun xj => (nth k (get_indices n fw) 0 - xj)%Z) (get_indices n fw))) = den n k.
Proof.
  intros H. unfold den. f_equal. f_equal. rewrite indices_nth by auto. rewrite indices_eq, map_map. apply map_ext. intros j. lia.
Qed.
Lemma wrap64_id z : (- 2 ^ 63 <= z < 2 ^ 63)%Z -> wrap64 z = z.
Proof. intros H. unfold wrap64. rewrite Z.mod_small; lia. Qed.
Lemma den_fits n k : (n <= 20)%nat -> (k <= n)%nat -> wrap64 (den n k) = den n k.
Proof.
  intros Hn Hk. apply wrap64_id.
  assert (C : forallb (fun n => forallb (fun k => (- 2 ^ 63 <=? den n k) && (den n k <? 2 ^ 63))%Z (seq 0 (S n))) (seq 0 21) = true) by (vm_compute; reflexivity).
  rewrite forallb_forall in C. specialize (C n ltac:(apply in_seq; lia)). rewrite forallb_forall in C. specialize (C k ltac:(apply in_seq; lia)).
  apply Bool.andb_true_iff in C as [C1 C2]. apply Z.leb_le in C1. apply Z.ltb_lt in C2. lia.
Qed.
Lemma prodZ_IZR l : IZR (prodZ l) = prodR (map IZR l).
Proof. induction l as [|a l IH]; cbn [prodZ fold_right map prodR]; auto. rewrite mult_IZR. fold (prodZ l). rewrite IH. reflexivity. Qed.
Lemma den_basis n fw k : (k <= n)%nat -> prodR (map (fun x => nth k (nodes n fw) 0 - x) (drop_at k (nodes n fw))) = IZR (den n k).
Proof.
  intros H. rewrite <- (den_eq n fw k H), prodZ_IZR, <- !drop_at_map. f_equal. f_equal. rewrite map_map. unfold nodes. rewrite map_map.
  apply map_ext. intros x. rewrite minus_IZR. f_equal. rewrite (map_nth_lt _ _ _ 0%Z) by (rewrite indices_length; lia). reflexivity.
Qed.
(** Line by line result of the coefficient computation, for any order. *)
Lemma lagrange_coeffs n alpha fw : (1 <= n)%nat ->
  dig_delay_lagrange_coeffs n alpha fw = Ok (map (fun k => ndiv (prodR (map (fun x => alpha - x) (drop_at k (nodes n fw)))) (IZR (wrap64 (den n k)))) (seq 0 (S n))).
Proof.
  intros H. unfold dig_delay_lagrange_coeffs. rewrite indices_length. replace (S n =? 1)%nat with false by (symmetry; apply Nat.eqb_neq; lia). f_equal.
  set (f := fun (k : nat) (row : list R) => prodR (drop_at k row)). set (g := fun (k : nat) (row : list Z) => wrap64 (prodZ (drop_at k row))).
  apply (nth_ext_def None); [repeat rewrite map2_length; rewrite !map_length, repeat_length, !seq_length, indices_length; lia|].
  intros k Hk. repeat rewrite map2_length in Hk. rewrite map_length, repeat_length, seq_length, indices_length in Hk. assert (Hk' : (k < S n)%nat) by lia.
  rewrite (map2_nth _ _ _ _ 0 0%Z) by (rewrite map2_length; rewrite ?map_length, ?repeat_length, seq_length, ?indices_length; lia).
  rewrite (map2_nth f _ _ _ 0%nat []) by (rewrite ?repeat_length, ?seq_length; lia). rewrite (map2_nth g _ _ _ 0%nat []) by (rewrite ?map_length, ?seq_length, ?indices_length; lia).
  rewrite nth_map_seq by lia. rewrite seq_nth by lia. rewrite repeat_nth by lia. rewrite (map_nth_lt _ _ _ 0%Z) by (rewrite indices_length; lia).
  cbn [Nat.add]. unfold f, g. rewrite den_eq by lia. f_equal. rewrite <- drop_at_map. f_equal. f_equal. unfold nodes. now rewrite map_map.
Qed.
Lemma lagrange_basis n alpha fw : (1 <= n <= 20)%nat ->
  dig_delay_lagrange_coeffs n alpha fw = Ok (map (fun k => Some (basis (nodes n fw) k alpha)) (seq 0 (S n))).
Proof.
  intros H. rewrite lagrange_coeffs by lia. f_equal. apply map_ext_in. intros k I. apply in_seq in I. rewrite den_fits by lia. unfold ndiv, basis.
  rewrite den_basis by lia. destruct (Req_EM_T _ 0) as [E|E]; auto. exfalso. revert E. rewrite <- (den_basis n fw) by lia. apply basis_den; [apply nodes_NoDup|rewrite nodes_length; lia].
Qed.
Lemma nsum_some l : fold_right nadd (Some 0) (map Some l) = Some (sum_R l).
Proof. induction l as [|a l IH]; auto. cbn [map fold_right sum_R]. rewrite IH. reflexivity. Qed.
Lemma sinc_int z : z <> 0%Z -> sinc (IZR z) = 0.
Proof.
  intros H. unfold sinc. destruct (Req_EM_T (IZR z) 0) as [E|E]; [apply eq_IZR in E; congruence|].
  replace (PI * IZR z) with (IZR z * PI) by ring. assert (S : sin (IZR z * PI) = 0) by (apply sin_eq_0_1; now exists z). rewrite S. unfold Rdiv. ring.
Qed.
Lemma sinc_0 : sinc 0 = 1. Proof. unfold sinc. destruct (Req_EM_T 0 0); [reflexivity|congruence]. Qed.

Lemma nadd_comm u v : nadd u v = nadd v u. Proof. destruct u, v; cbn; auto. f_equal. ring. Qed.
Lemma nadd_assoc u v w : nadd u (nadd v w) = nadd (nadd u v) w. Proof. destruct u, v, w; cbn; auto. f_equal. ring. Qed.
Lemma nadd_0 u : nadd (Some 0) u = u. Proof. destruct u; cbn; auto. f_equal. ring. Qed.
Lemma nsum_app u v : nsum (u ++ v) = nadd (nsum u) (nsum v).
Proof. induction u as [|a u IH]; cbn [app nsum fold_right]; [now rewrite nadd_0|]. fold (nsum (u ++ v)). rewrite IH. apply nadd_assoc. Qed.
Lemma nsum_rev l : nsum (rev l) = nsum l.
Proof. induction l as [|a l IH]; auto. cbn [rev]. rewrite nsum_app, IH. cbn [nsum fold_right]. rewrite (nadd_comm a (Some 0)), nadd_0. apply nadd_comm. Qed.
Lemma seq_rev_map {B} (f : nat -> B) n : rev (map f (seq 0 n)) = map (fun k => f (n - 1 - k)%nat) (seq 0 n).
Proof.
  destruct n as [|n]; [reflexivity|]. apply (nth_ext_def (f 0%nat)); [now rewrite rev_length, !map_length, seq_length|].
  intros i Hi. rewrite rev_length, map_length, seq_length in Hi. rewrite rev_nth by (rewrite map_length, seq_length; lia). rewrite map_length, seq_length, !nth_map_seq by lia. f_equal. lia.
Qed.
(** Output of the delay filter at row [r]: tap [i] multiplies sample [r + i]. *)
Lemma fir_row c s order r : length c = S order -> fir_at (rev c) s (r + order) = row_value c s r.
Proof.
  intros L. unfold fir_at, row_value. rewrite rev_length, L. replace (Nat.min (S (r + order)) (S order)) with (S order) by lia.
  fold (nsum (map (fun k => nmul (nth k (rev c) (Some 0)) (nth (r + order - k) s (Some 0))) (seq 0 (S order)))).
  rewrite <- nsum_rev, seq_rev_map. f_equal. apply map_ext_in. intros k I. apply in_seq in I. rewrite rev_nth by lia. f_equal; f_equal; lia.
Qed.
Lemma map_nth_range {A} (d : A) s n l : (s + n <= length l)%nat -> map (fun r => nth (s + r) l d) (seq 0 n) = firstn n (skipn s l).
Proof.
  intros H. apply (nth_ext_def d); [rewrite map_length, seq_length, firstn_length, skipn_length; lia|]. intros i Hi. rewrite map_length, seq_length in Hi.
  rewrite nth_map_seq, nth_firstn, nth_skipn by auto. reflexivity.
Qed.
Lemma oversample_spec s osr order method beta (cf : nat -> list num) : (1 <= osr)%nat -> (order <= length s)%nat -> (osr = 1%nat \/ s <> []) ->
  (forall j, (1 <= j < osr)%nat -> get_dd_coeffs method order (INR j / INR osr) true beta = Ok (cf j) /\ length (cf j) = S order) ->
  exists temp, digital_oversample s osr order method beta =
      Ok (temp, map (fun t => INR t / INR osr) (seq 0 ((length s - order) * osr)), map Z.of_nat (seq 0 (length s - order + 1))) /\
    length temp = ((length s - order) * osr)%nat /\
    (forall r, (r < length s - order)%nat -> nth (r * osr) temp None = nth (order / 2 + r) s None) /\
    (forall r j, (r < length s - order)%nat -> (1 <= j < osr)%nat -> nth (r * osr + j) temp None = row_value (cf j) s r).
Proof.
  intros Ho Hs Hne Hc. unfold digital_oversample. set (h := (order / 2)%nat). set (m := (order mod 2)%nat).
  assert (Eo : (order = h + (h + m))%nat) by (pose proof (Nat.div_mod order 2 ltac:(lia)); unfold h, m; lia).
  replace (length s <? h + (h + m))%nat with false by (symmetry; apply Nat.ltb_ge; lia).
  replace (osr =? 0)%nat with false by (symmetry; apply Nat.eqb_neq; lia).
  set (col0 := if (h + m =? 0)%nat then _ else _).
  assert (E0 : col0 = map (fun r => nth (h + r) s (Some 0)) (seq 0 (length s - order))).
  { rewrite map_nth_range by lia. unfold col0. destruct (Nat.eqb_spec (h + m) 0) as [Z|Z].
    - replace h with 0%nat by lia. cbn [skipn]. rewrite firstn_all2 by lia. reflexivity.
    - rewrite slice_to_neg by lia. rewrite skipn_firstn_comm. f_equal. lia. }
  clearbody col0.
  rewrite (map_res_ok _ (fun alpha => match get_dd_coeffs method order alpha true beta with Ok c => map (row_value c s) (seq 0 (length s - order)) | Raise _ => [] end)).
  2:{ intros alpha I. apply in_map_iff in I as (j & <- & I). apply in_seq in I. destruct (Hc j ltac:(lia)) as [-> L]. cbn [bind].
      unfold lfilter_fir. replace (length s =? 0)%nat with false by (symmetry; apply Nat.eqb_neq; destruct Hne as [Hne|Hne]; [lia|destruct s; [congruence|discriminate]]). cbn [bind]. f_equal.
      apply (nth_ext_def None); [rewrite skipn_length, !map_length, !seq_length; lia|]. intros r Hr. rewrite skipn_length, map_length, seq_length in Hr.
      rewrite nth_skipn, !nth_map_seq by lia. cbn [Nat.add]. replace (order + r)%nat with (r + order)%nat by lia. now apply fir_row. }
  cbn [bind]. rewrite map_map. replace (length s - h - (h + m))%nat with (length s - order)%nat by lia. set (rows := (length s - order)%nat) in *.
  set (cols := map _ (seq 1 (osr - 1))).
  set (f := fun r => map (fun col : list num => nth r col (Some 0)) (col0 :: cols)).
  assert (Lf : forall r, length (f r) = osr) by (intros r; unfold f, cols; rewrite map_length; cbn [length]; rewrite map_length, seq_length; lia).
  assert (Lt : length (concat (map f (seq 0 rows))) = (rows * osr)%nat).
  { rewrite (concat_length_const osr); [now rewrite map_length, seq_length|]. apply Forall_map, Forall_forall. intros r _. apply Lf. }
  cbv zeta. fold f. exists (concat (map f (seq 0 rows))). split; [match goal with |- Ok (?a, ?b, ?c) = _ => replace (Ok (a, b, c)) with (Ok (concat (map f (seq 0 rows)), map (fun t => INR t / INR osr) (seq 0 (length (concat (map f (seq 0 rows))))), c)) by reflexivity end; rewrite Lt; reflexivity|]. split; [exact Lt|].
  assert (Nt : forall r j, (r < rows)%nat -> (j < osr)%nat -> nth (r * osr + j) (concat (map f (seq 0 rows))) None = nth j (f r) None).
  { intros r j Hr Hj. rewrite (concat_nth_const None osr) by (try lia; apply Forall_map, Forall_forall; intros; apply Lf).
    replace ((r * osr + j) mod osr)%nat with j by (rewrite Nat.add_comm, Nat.mod_add, Nat.mod_small; lia).
    replace ((r * osr + j) / osr)%nat with r by (rewrite Nat.add_comm, Nat.div_add, Nat.div_small; lia). rewrite nth_map_seq by auto. reflexivity. }
  split.
  - intros r Hr. pose proof (Nt r 0%nat Hr ltac:(lia)) as N. rewrite Nat.add_0_r in N. rewrite N. unfold f. cbn [map nth]. rewrite E0, nth_map_seq by auto. cbn [Nat.add].
    apply nth_indep. lia.
  - intros r j Hr Hj. rewrite Nt by lia. unfold f. destruct j as [|j]; [lia|]. cbn [map nth]. rewrite (map_nth_lt _ _ _ []) by (unfold cols; rewrite map_length, seq_length; lia).
    unfold cols. rewrite nth_map_seq by lia. replace (1 + j)%nat with (S j) by lia. destruct (Hc (S j) ltac:(lia)) as [-> _]. rewrite nth_map_seq by auto. reflexivity.
Qed.
Lemma poly_shift p x0 : exists q, length q = length p /\ forall x, peval q x = peval p (x0 + x).
Proof.
  induction p as [|c p (q & L & E)]; [exists []; auto|]. exists (padd [c] (plin (- x0) q)). split.
  - rewrite padd_length, plin_length, L. cbn [length]. lia.
  - intros x. rewrite padd_eval, plin_eval, E. cbn [peval]. ring.
Qed.
Lemma lagrange_exact n fw p x0 alpha : (length p <= S n)%nat ->
  sum_R (map (fun k => basis (nodes n fw) k alpha * peval p (x0 + IZR (first_index n fw + Z.of_nat k))) (seq 0 (S n))) = peval p (x0 + alpha).
Proof.
  intros L. destruct (poly_shift p x0) as (q & Lq & E). rewrite <- E. rewrite <- (interpolation (nodes n fw) q alpha (nodes_NoDup n fw)) by (rewrite nodes_length; lia).
  rewrite nodes_length. apply sum_R_ext. intros k I. apply in_seq in I. rewrite nodes_nth, E by lia. reflexivity.
Qed.
Lemma row_lagrange n p r alpha N : (length p <= S n)%nat -> (r + n < N)%nat ->
  row_value (map (fun k => Some (basis (nodes n true) k alpha)) (seq 0 (S n))) (poly_samples p N) r = Some (peval p (INR (n / 2 + r) + alpha)).
Proof.
  intros L H. unfold row_value. rewrite map_length, seq_length.
  rewrite <- (lagrange_exact n true p (INR (n / 2 + r)) alpha L). unfold nsum. rewrite <- nsum_some. f_equal. rewrite map_map. apply map_ext_in. intros k I. apply in_seq in I.
  rewrite nth_map_seq by lia. unfold poly_samples. rewrite nth_map_seq by lia. cbn [nmul Nat.add]. f_equal. f_equal. f_equal. unfold first_index.
  rewrite plus_IZR, opp_IZR, <- INR_IZR_INZ. replace (Z.of_nat n / 2)%Z with (Z.of_nat (n / 2)) by (apply Nat2Z.inj_div). rewrite <- INR_IZR_INZ, !plus_INR. ring.
Qed.
