(** Lemmas for C53. *)
From Coq Require Import Reals Lra Lia Ring.
From Verif Require Import Py B_list M_soft M_channel S_channel P_channel M_ctle S_ctle.
Import List.
Open Scope R_scope.

(** * Complex numbers *)
Lemma Cx_eq x y : fst x = fst y -> snd x = snd y -> x = y :> Cx. Proof. destruct x, y. cbn. congruence. Qed.
Lemma Cx_ring : ring_theory (cre 0) (cre 1) cadd cmul csub copp eq.
Proof. constructor; intros; apply Cx_eq; cbn; ring. Qed.
Add Ring CxRing : Cx_ring.
Lemma cabs2_mul x y : cabs2 (cmul x y) = cabs2 x * cabs2 y. Proof. unfold cabs2, cmul. cbn. ring. Qed.
Lemma cabs2_0 x : cabs2 x = 0 -> x = cre 0.
Proof. destruct x as [a b]. unfold cabs2, cre. cbn. intros H. assert (0 <= a * a) by (apply Rle_0_sqr). assert (0 <= b * b) by (apply Rle_0_sqr). f_equal; apply Rsqr_0_uniq; unfold Rsqr; lra. Qed.
Lemma cmul_0 x y : cmul x y = cre 0 -> x = cre 0 \/ y = cre 0.
Proof.
  intros H. assert (E : cabs2 x * cabs2 y = 0) by (rewrite <- cabs2_mul, H; unfold cabs2, cre; cbn; ring). apply Rmult_integral in E as [E|E]; [left|right]; now apply cabs2_0.
Qed.
Lemma cprod_0 l : cprod l = cre 0 -> Exists (fun x => x = cre 0) l.
Proof. induction l as [|x l IH]; cbn [cprod]; intros H; [unfold cre in H; injection H; lra|]. apply cmul_0 in H as [H|H]; [now left|right; auto]. Qed.
Lemma cre_mul a b : cre (a * b) = cmul (cre a) (cre b). Proof. apply Cx_eq; cbn; ring. Qed.
Lemma cre_add a b : cre (a + b) = cadd (cre a) (cre b). Proof. apply Cx_eq; cbn; ring. Qed.
Lemma cre_inj a b : cre a = cre b -> a = b. Proof. unfold cre. congruence. Qed.
Fixpoint cpow (x : Cx) (n : nat) : Cx := match n with O => cre 1 | S n => cmul x (cpow x n) end.
Lemma cpow_add x m n : cpow x (m + n) = cmul (cpow x m) (cpow x n). Proof. induction m as [|m IH]; cbn [Nat.add cpow]; [ring|rewrite IH; ring]. Qed.
Lemma cpow_mul x y n : cpow (cmul x y) n = cmul (cpow x n) (cpow y n). Proof. induction n as [|n IH]; cbn [cpow]; [ring|rewrite IH; ring]. Qed.
Lemma cpow_cre a n : cpow (cre a) n = cre (a ^ n). Proof. induction n as [|n IH]; cbn [cpow pow]; auto. rewrite IH, cre_mul. auto. Qed.
Lemma cpow_nz x n : x <> cre 0 -> cpow x n <> cre 0.
Proof. intros H. induction n as [|n IH]; cbn [cpow]; [unfold cre; injection 1; lra|]. intros E. apply cmul_0 in E as [E|E]; auto. Qed.
Fixpoint csum (f : nat -> Cx) (n : nat) : Cx := match n with O => cre 0 | S n => cadd (csum f n) (f n) end.
Lemma csum_ext f g n : (forall k, (k < n)%nat -> f k = g k) -> csum f n = csum g n.
Proof. induction n as [|n IH]; intros H; cbn [csum]; auto. rewrite IH, H; auto. Qed.
Lemma csum_add f g n : csum (fun k => cadd (f k) (g k)) n = cadd (csum f n) (csum g n).
Proof. induction n as [|n IH]; cbn [csum]; [ring|rewrite IH; ring]. Qed.
Lemma csum_mul c f n : csum (fun k => cmul c (f k)) n = cmul c (csum f n).
Proof. induction n as [|n IH]; cbn [csum]; [ring|rewrite IH; ring]. Qed.
Lemma csum_0 f n : (forall k, (k < n)%nat -> f k = cre 0) -> csum f n = cre 0.
Proof. induction n as [|n IH]; intros H; cbn [csum]; auto. rewrite IH, H by auto. ring. Qed.
Lemma csum_single f n m : (m < n)%nat -> (forall k, (k < n)%nat -> k <> m -> f k = cre 0) -> csum f n = f m.
Proof.
  induction n as [|n IH]; intros Hm H; [lia|]. cbn [csum]. destruct (Nat.eq_dec m n) as [->|N].
  - rewrite csum_0 by (intros; apply H; lia). ring.
  - rewrite IH by (auto; lia). rewrite (H n) by lia. ring.
Qed.
Lemma csum_S f n : csum f (S n) = cadd (f 0%nat) (csum (fun k => f (S k)) n).
Proof. induction n as [|n IH]; [cbn [csum]; ring|]. change (csum f (S (S n))) with (cadd (csum f (S n)) (f (S n))). rewrite IH. cbn [csum]. ring. Qed.
Lemma csum_swap (f : nat -> nat -> Cx) m n : csum (fun i => csum (fun j => f i j) n) m = csum (fun j => csum (fun i => f i j) m) n.
Proof.
  induction m as [|m IH]; cbn [csum]; [symmetry; apply csum_0; auto|]. rewrite IH, <- csum_add. reflexivity.
Qed.
Lemma csum_cre f n : csum (fun k => cre (f k)) n = cre (sum_upto f n).
Proof. induction n as [|n IH]; cbn [csum sum_upto]; auto. now rewrite IH, cre_add. Qed.
Lemma ceval_sum l x : ceval l x = csum (fun j => cmul (cre (nth j l 0)) (cpow x j)) (length l).
Proof.
  induction l as [|c l IH]; [reflexivity|]. cbn [ceval length]. rewrite csum_S. cbn [nth cpow]. rewrite IH, <- csum_mul.
  rewrite (csum_ext (fun k => cmul x _) (fun j => cmul (cre (nth j l 0)) (cmul x (cpow x j)))) by (intros; ring). ring.
Qed.

(** * Binomial theorem *)
Lemma choose_0 n : choose n 0 = 1. Proof. now destruct n. Qed.
Lemma choose_high n : forall k, (n < k)%nat -> choose n k = 0.
Proof. induction n as [|n IH]; intros [|k] H; try lia; cbn [choose]; auto. rewrite !IH by lia. ring. Qed.
Lemma binomial_thm y n : csum (fun k => cmul (cre (choose n k)) (cpow y k)) (S n) = cpow (cadd (cre 1) y) n.
Proof.
  induction n as [|n IH]; [cbn [csum cpow choose]; ring|]. rewrite csum_S. rewrite choose_0.
  rewrite (csum_ext _ (fun k => cadd (cmul y (cmul (cre (choose n k)) (cpow y k))) (cmul (cre (choose n (S k))) (cpow y (S k))))).
  2:{ intros k _. cbn [choose cpow]. rewrite cre_add. ring. }
  rewrite csum_add, csum_mul, IH. change (cpow (cadd (cre 1) y) (S n)) with (cmul (cadd (cre 1) y) (cpow (cadd (cre 1) y) n)).
  assert (T : csum (fun k => cmul (cre (choose n k)) (cpow y k)) (S (S n)) = cadd (cmul (cre 1) (cre 1)) (csum (fun k => cmul (cre (choose n (S k))) (cpow y (S k))) (S n))) by (rewrite csum_S, choose_0; reflexivity).
  set (f0 := fun k => cmul (cre (choose n k)) (cpow y k)) in *.
  change (csum f0 (S (S n))) with (cadd (csum f0 (S n)) (f0 (S n))) in T. rewrite IH in T. unfold f0 in T at 1. rewrite (choose_high n (S n)) in T by lia.
  set (X := cpow (cadd (cre 1) y) n) in *.
  match goal with |- cadd _ (cadd _ ?t) = _ => set (S1 := t) in * end. clearbody X S1.
  assert (T' : X = cadd (cre 1) S1) by (transitivity (cadd X (cmul (cre 0) (cpow y (S n)))); [ring|]; rewrite T; ring).
  transitivity (cadd (cmul y X) (cadd (cre 1) S1)); [cbn [cpow]; ring|]. rewrite <- T'. ring.
Qed.
(** * The bilinear substitution *)
Definition hom (p : list R) (m : nat) (u v : Cx) : Cx := csum (fun i => cmul (cre (nth i p 0)) (cmul (cpow u i) (cpow v (m - i)))) (length p).
Lemma bilinear_value p m fs x : (length p <= S m)%nat ->
  ceval (map (bilinear_coef p m fs) (seq 0 (m + 1))) x = hom p m (cmul (cre (2 * fs)) (csub (cre 1) x)) (cadd (cre 1) x).
Proof.
  intros L. rewrite ceval_sum, map_length, seq_length. replace (m + 1)%nat with (S m) by lia.
  set (g := fun i k l => choose i k * choose (m - i) l * nth i p 0 * (2 * fs) ^ i * (-1) ^ k).
  rewrite (csum_ext _ (fun j => csum (fun i => csum (fun k => csum (fun l => if (k + l =? j)%nat then cmul (cre (g i k l)) (cpow x j) else cre 0) (S (m - i))) (S i)) (length p))).
  2:{ intros j Hj. rewrite nth_map_seq by auto. cbn [Nat.add]. unfold bilinear_coef. rewrite sumR_upto, <- csum_cre.
      transitivity (cmul (cpow x j) (csum (fun k => cre (sumR (map (fun k0 => sumR (map (fun l => if (k0 + l =? j)%nat then choose k k0 * choose (m - k) l * nth k p 0 * (2 * fs) ^ k * (-1) ^ k0 else 0) (seq 0 (m - k + 1)))) (seq 0 (k + 1))))) (length p))); [ring|].
      rewrite <- csum_mul. apply csum_ext. intros i _. replace (i + 1)%nat with (S i) by lia. replace (m - i + 1)%nat with (S (m - i)) by lia. rewrite sumR_upto, <- csum_cre, <- csum_mul. apply csum_ext. intros k _.
      rewrite sumR_upto, <- csum_cre, <- csum_mul. apply csum_ext. intros l _. destruct (k + l =? j)%nat; unfold g; ring. }
  rewrite csum_swap. unfold hom. apply csum_ext. intros i Hi. rewrite csum_swap.
  transitivity (csum (fun k => csum (fun l => cmul (cre (g i k l)) (cpow x (k + l))) (S (m - i))) (S i)).
  { apply csum_ext. intros k Hk. rewrite csum_swap. apply csum_ext. intros l Hl. rewrite (csum_single _ _ (k + l)%nat); [now rewrite Nat.eqb_refl|lia|].
    intros j _ Nj. replace (k + l =? j)%nat with false by (symmetry; apply Nat.eqb_neq; lia). reflexivity. }
  transitivity (cmul (cre (nth i p 0 * (2 * fs) ^ i)) (cmul (cpow (cadd (cre 1) (copp x)) i) (cpow (cadd (cre 1) x) (m - i)))).
  - rewrite <- (binomial_thm (copp x) i), <- (binomial_thm x (m - i)).
    transitivity (cmul (cre (nth i p 0 * (2 * fs) ^ i)) (csum (fun k => cmul (csum (fun k0 => cmul (cre (choose (m - i) k0)) (cpow x k0)) (S (m - i))) (cmul (cre (choose i k)) (cpow (copp x) k))) (S i))); [|rewrite csum_mul; ring].
    rewrite <- csum_mul. apply csum_ext. intros k _.
    transitivity (cmul (cmul (cre (nth i p 0 * (2 * fs) ^ i)) (cmul (cre (choose i k)) (cpow (copp x) k))) (csum (fun k0 => cmul (cre (choose (m - i) k0)) (cpow x k0)) (S (m - i)))); [|ring].
    rewrite <- csum_mul. apply csum_ext. intros l _. unfold g. rewrite cpow_add. replace (copp x) with (cmul (cre (-1)) x) by (apply Cx_eq; cbn; ring). rewrite cpow_mul, cpow_cre, !cre_mul. ring.
  - rewrite cpow_mul, cpow_cre, cre_mul. replace (csub (cre 1) x) with (cadd (cre 1) (copp x)) by ring. ring.
Qed.
(** * Polynomials from roots *)
Lemma times_linear_length r p : length (times_linear r p) = S (length p). Proof. unfold times_linear. now rewrite map_length, seq_length. Qed.
Lemma times_linear_nth r p k : nth k (times_linear r p) 0 = nth k (0 :: p) 0 - r * nth k p 0.
Proof.
  unfold times_linear. destruct (Nat.lt_ge_cases k (S (length p))); [now rewrite nth_map_seq|]. rewrite !nth_overflow; try lia; [ring|cbn [length]; lia|rewrite map_length, seq_length; lia].
Qed.
Lemma fromroots_length rs : length (fromroots rs) = S (length rs). Proof. induction rs as [|r rs IH]; [reflexivity|]. cbn [fromroots fold_right]. fold (fromroots rs). rewrite times_linear_length, IH. reflexivity. Qed.
Lemma fromroots_hom rs u v : forall m, (length rs <= m)%nat -> hom (fromroots rs) m u v = cmul (cpow v (m - length rs)) (cprod (map (fun r => csub u (cmul (cre r) v)) rs)).
Proof.
  induction rs as [|r rs IH]; intros m Hm.
  - unfold hom. cbn [fromroots fold_right length csum nth cpow map cprod]. rewrite Nat.sub_0_r. ring.
  - cbn [length] in Hm. destruct m as [|m]; [lia|]. cbn [fromroots fold_right map cprod]. fold (fromroots rs). set (q := fromroots rs) in *.
    assert (Lq : length q = S (length rs)) by apply fromroots_length. cbn [length Nat.sub].
    transitivity (cmul (csub u (cmul (cre r) v)) (hom q m u v)); [|rewrite IH by lia; ring].
    unfold hom. rewrite times_linear_length.
    rewrite (csum_ext _ (fun i => cadd (cmul (cre (nth i (0 :: q) 0)) (cmul (cpow u i) (cpow v (S m - i)))) (cmul (cmul (cre (- r)) v) (if (i <? length q)%nat then cmul (cre (nth i q 0)) (cmul (cpow u i) (cpow v (m - i))) else cre 0)))).
    2:{ intros i Hi. rewrite times_linear_nth. unfold Rminus. rewrite cre_add. destruct (Nat.ltb_spec i (length q)) as [H|H].
        - replace (S m - i)%nat with (S (m - i)) by lia. cbn [cpow]. replace (- (r * nth i q 0)) with (- r * nth i q 0) by ring. rewrite cre_mul. ring.
        - rewrite (nth_overflow q) by lia. rewrite Rmult_0_r, Ropp_0. ring. }
    rewrite csum_add, csum_mul. rewrite csum_S. cbn [nth]. cbn [csum]. replace (length q <? length q)%nat with false by (symmetry; apply Nat.ltb_ge; lia).
    rewrite (csum_ext (fun i => if (i <? length q)%nat then _ else _) (fun i => cmul (cre (nth i q 0)) (cmul (cpow u i) (cpow v (m - i))))) by (intros i Hi; now rewrite (proj2 (Nat.ltb_lt _ _) Hi)).
    rewrite (csum_ext (fun k => cmul (cre (nth k q 0)) (cmul (cpow u (S k)) (cpow v (S m - S k)))) (fun k => cmul u (cmul (cre (nth k q 0)) (cmul (cpow u k) (cpow v (m - k)))))) by (intros k _; cbn [cpow Nat.sub]; ring).
    rewrite csum_mul. replace (cre (- r)) with (copp (cre r)) by (apply Cx_eq; cbn; ring). ring.
Qed.
Lemma fromroots_0 rs : nth 0 (fromroots rs) 0 = prod_R (map Ropp rs).
Proof.
  induction rs as [|r rs IH]; [reflexivity|]. cbn [fromroots fold_right map prod_R]. fold (fromroots rs) (prod_R (map Ropp rs)). rewrite times_linear_nth, IH. cbn [nth]. ring.
Qed.
Lemma stable_root_abs f : stable_root f = - Rabs f.
Proof. unfold stable_root, np_signR, Rabs. destruct (Rlt_dec f 0), (Rcase_abs f); try lra. destruct (Req_EM_T f 0); lra. Qed.
Lemma prod_abs fs : Forall (fun f => f <> 0) fs -> 0 < prod_R (map Ropp (map stable_root fs)).
Proof.
  induction 1 as [|f fs H _ IH]; cbn [map prod_R fold_right]; [lra|]. fold (prod_R (map Ropp (map stable_root fs))). rewrite stable_root_abs, Ropp_involutive. apply Rmult_lt_0_compat; auto. now apply Rabs_pos_lt.
Qed.
(** The polynomial with unit DC value, homogenised. *)
Lemma unit_poly fs : Forall (fun f => f <> 0) fs -> exists p, unit_dc (fromroots (map stable_root fs)) = Some p /\ length p = S (length fs) /\ nth 0 p 0 = 1 /\
  forall m u v, (length fs <= m)%nat -> hom p m u v = cmul (cpow v (m - length fs)) (cprod (map (fun f => cadd v (cmul (cre (/ Rabs f)) u)) fs)).
Proof.
  intros F. pose proof (prod_abs fs F) as Pos. set (q := fromroots (map stable_root fs)). assert (Q0 : nth 0 q 0 = prod_R (map Ropp (map stable_root fs))) by apply fromroots_0.
  exists (map (fun c => c / nth 0 q 0) q). unfold unit_dc. destruct (Req_EM_T (nth 0 q 0) 0) as [E|E]; [lra|]. split; auto. rewrite map_length. split; [unfold q; now rewrite fromroots_length, map_length|]. split; [rewrite nth_div; now apply Rinv_r|].
  intros m u v Hm. unfold hom. rewrite map_length.
  rewrite (csum_ext _ (fun i => cmul (cre (/ nth 0 q 0)) (cmul (cre (nth i q 0)) (cmul (cpow u i) (cpow v (m - i)))))) by (intros i _; rewrite nth_div; unfold Rdiv; rewrite cre_mul; ring).
  rewrite csum_mul. fold (hom q m u v). replace (hom q m u v) with (hom (fromroots (map stable_root fs)) m u v) by reflexivity. rewrite fromroots_hom by (rewrite map_length; auto). rewrite map_length, map_map, Q0. clear Q0 E q Hm.
  assert (T : cmul (cre (/ prod_R (map Ropp (map stable_root fs)))) (cprod (map (fun f => csub u (cmul (cre (stable_root f)) v)) fs)) = cprod (map (fun f => cadd v (cmul (cre (/ Rabs f)) u)) fs)).
  2:{ rewrite <- T. ring. }
  clear Pos. induction F as [|f fs H F IH]; cbn [map prod_R fold_right cprod]; [apply Cx_eq; cbn; field|]. fold (prod_R (map Ropp (map stable_root fs))). pose proof (prod_abs fs F) as Pos. pose proof (Rabs_pos_lt f H) as Pf.
  rewrite <- IH. rewrite stable_root_abs, Ropp_involutive. rewrite Rinv_mult. rewrite cre_mul.
  transitivity (cmul (cmul (cre (/ Rabs f)) (csub u (cmul (cre (- Rabs f)) v))) (cmul (cre (/ prod_R (map Ropp (map stable_root fs)))) (cprod (map (fun f0 => csub u (cmul (cre (stable_root f0)) v)) fs)))); [ring|]. f_equal.
  apply Cx_eq; cbn; field; lra.
Qed.
Lemma hom_scale c p m u v : hom (map (fun x => c * x) p) m u v = cmul (cre c) (hom p m u v).
Proof.
  unfold hom. rewrite map_length, <- csum_mul. apply csum_ext. intros i Hi. rewrite (map_nth_lt _ _ _ 0) by auto. rewrite cre_mul. ring.
Qed.
Lemma ceval_div d l x : ceval (map (fun c => c / d) l) x = cmul (cre (/ d)) (ceval l x).
Proof. induction l as [|c l IH]; cbn [map ceval]; [ring|]. rewrite IH. unfold Rdiv. rewrite cre_mul. ring. Qed.
Lemma ceval_at0 l : ceval l (cre 0) = cre (nth 0 l 0).
Proof. destruct l as [|c l]; cbn [ceval nth]; auto. ring. Qed.
Lemma corner_pos fs k : Forall (fun f => f <> 0) fs -> 0 < k -> exists r, 0 < r /\ cprod (map (fun f => cadd (cre 1) (cmul (cre (/ Rabs f)) (cre k))) fs) = cre r.
Proof.
  intros F K. induction F as [|f fs H F (r & Hr & E)]; cbn [map cprod]; [exists 1; split; auto; lra|]. exists ((1 + / Rabs f * k) * r). rewrite E. pose proof (Rinv_0_lt_compat _ (Rabs_pos_lt f H)). split.
  - apply Rmult_lt_0_compat; auto. nra.
  - rewrite cre_mul, cre_add, cre_mul. reflexivity.
Qed.
Lemma filter_spec zeros poles dc fs osr : zeros <> [] -> poles <> [] -> Forall (fun f => f <> 0) zeros -> Forall (fun f => f <> 0) poles -> 0 < fs * osr ->
  let m := Nat.max (length zeros) (length poles) in let k := 2 * (fs * osr) in let g := Rpower 10 (dc / 20) in
  exists b a d b0, 0 < d /\ get_ctle_filter zeros poles dc fs osr = Ok (Some (trim_small b, a)) /\ length b = S m /\ length a = S m /\ nth 0 a 0 = 1 /\ nth 0 b 0 = b0 /\
    cre d = corner_product poles (cre k) /\ cmul (cre d) (cre b0) = cmul (cre g) (corner_product zeros (cre k)) /\
    forall x, cmul (cre d) (ceval b x) = cmul (cre g) (cmul (cpow (cadd (cre 1) x) (m - length zeros)) (cprod (map (fun f => cadd (cadd (cre 1) x) (cmul (cre (/ Rabs f)) (cmul (cre k) (csub (cre 1) x)))) zeros))) /\
              cmul (cre d) (ceval a x) = cmul (cpow (cadd (cre 1) x) (m - length poles)) (cprod (map (fun f => cadd (cadd (cre 1) x) (cmul (cre (/ Rabs f)) (cmul (cre k) (csub (cre 1) x)))) poles)).
Proof.
  intros Nz Np Fz Fp Pos m k g. destruct (unit_poly zeros Fz) as (n & En & Ln & N0 & Hn). destruct (unit_poly poles Fp) as (d & Ed & Ld & D0 & Hd).
  assert (PF : forall l, l <> [] -> polynomial_fromroots (map stable_root l) = Ok (fromroots (map stable_root l))) by (intros [|? ?] H; [congruence|reflexivity]).
  unfold get_ctle_filter. rewrite !PF by auto. cbn [bind]. rewrite En, Ed. unfold bilinear. rewrite map_length, !rev_length, Ln, Ld. cbn [Nat.sub]. rewrite !Nat.sub_0_r. fold m g.
  rewrite <- map_rev, !rev_involutive. set (B := map (bilinear_coef _ m _) _). set (A := map (bilinear_coef d m _) _).
  assert (VB : forall x, ceval B x = cmul (cre g) (cmul (cpow (cadd (cre 1) x) (m - length zeros)) (cprod (map (fun f => cadd (cadd (cre 1) x) (cmul (cre (/ Rabs f)) (cmul (cre k) (csub (cre 1) x)))) zeros)))).
  { intros x. unfold B. rewrite bilinear_value by (rewrite map_length; lia). rewrite hom_scale, Hn by lia. reflexivity. }
  assert (VA : forall x, ceval A x = cmul (cpow (cadd (cre 1) x) (m - length poles)) (cprod (map (fun f => cadd (cadd (cre 1) x) (cmul (cre (/ Rabs f)) (cmul (cre k) (csub (cre 1) x)))) poles))).
  { intros x. unfold A. rewrite bilinear_value by lia. rewrite Hd by lia. reflexivity. }
  assert (LA : length A = S m) by (unfold A; rewrite map_length, seq_length; lia). assert (LB : length B = S m) by (unfold B; rewrite map_length, seq_length; lia).
  assert (Z1 : forall l, map (fun f : R => cadd (cadd (cre 1) (cre 0)) (cmul (cre (/ Rabs f)) (cmul (cre k) (csub (cre 1) (cre 0))))) l = map (fun f => cadd (cre 1) (cmul (cre (/ Rabs f)) (cre k))) l).
  { intros l. apply map_ext. intros f. apply Cx_eq; cbn; ring. }
  assert (P1 : forall q, cpow (cadd (cre 1) (cre 0)) q = cre 1) by (intros q; replace (cadd (cre 1) (cre 0)) with (cre 1) by ring; rewrite cpow_cre, pow1; reflexivity).
  destruct (corner_pos poles k Fp ltac:(unfold k; lra)) as (dd & Hdd & Edd).
  assert (A0 : nth 0 A 0 = dd). { apply cre_inj. rewrite <- ceval_at0, VA, Z1, P1, Edd. ring. }
  assert (TZ : trim_zeros A = A). { destruct A as [|a0 A']; [discriminate|]. cbn [nth] in A0. cbn [trim_zeros]. destruct (Req_EM_T a0 0); [lra|reflexivity]. }
  unfold normalize. clearbody A B. rewrite TZ. destruct A as [|a0 A']; [discriminate|]. cbn [nth] in A0. subst a0.
  exists (map (fun c => c / dd) B), (map (fun c => c / dd) (dd :: A')), dd, (nth 0 B 0 / dd). split; auto. split; [reflexivity|]. rewrite !map_length. split; auto. split; auto.
  split; [cbn [map nth]; field; lra|]. split; [apply nth_div|]. split; [symmetry; exact Edd|]. split.
  - rewrite <- cre_mul. replace (dd * (nth 0 B 0 / dd)) with (nth 0 B 0) by (field; lra). rewrite <- ceval_at0, VB, Z1, P1. unfold corner_product. ring.
  - intros x. rewrite !ceval_div, <- VA, <- VB. assert (I : cmul (cre dd) (cre (/ dd)) = cre 1) by (rewrite <- cre_mul; f_equal; field; lra).
    split; [transitivity (cmul (cmul (cre dd) (cre (/ dd))) (ceval B x))|transitivity (cmul (cmul (cre dd) (cre (/ dd))) (ceval (dd :: A') x))]; try ring; rewrite I; ring.
Qed.

(** Correspondence of the two variables: s (1 + x) = k (1 - x), where x stands for z^-1. *)
Lemma corner_subst fs k s x : cmul s (cadd (cre 1) x) = cmul (cre k) (csub (cre 1) x) ->
  cprod (map (fun f => cadd (cadd (cre 1) x) (cmul (cre (/ Rabs f)) (cmul (cre k) (csub (cre 1) x)))) fs) = cmul (cpow (cadd (cre 1) x) (length fs)) (corner_product fs s).
Proof.
  intros H. unfold corner_product. induction fs as [|f fs IH]; cbn [map cprod length cpow]; [ring|]. rewrite IH, <- H. ring.
Qed.
Lemma trim_small_keep b : 1 / 10 ^ 14 < Rabs (nth 0 b 0) -> trim_small b = b.
Proof. destruct b as [|c [|c' b]]; auto. cbn [nth trim_small]. destruct (Rle_dec (Rabs c) (/ 10 ^ 14)); auto. lra. Qed.
Lemma sum_ceval l : ceval l (cre 1) = cre (sum_of l).
Proof. unfold sum_of. induction l as [|c l IH]; cbn [ceval fold_right]; auto. rewrite IH, cre_add. ring. Qed.
Lemma cre_nz a : a <> 0 -> cre a <> cre 0. Proof. intros H E. apply H. now apply cre_inj in E. Qed.
Lemma cmul_cancel c x y : c <> cre 0 -> cmul c x = cmul c y -> x = y.
Proof.
  intros N H. assert (E : cmul c (csub x y) = cre 0) by (transitivity (csub (cmul c x) (cmul c y)); [ring|rewrite H; ring]). apply cmul_0 in E as [E|E]; [congruence|].
  transitivity (cadd (csub x y) y); [ring|rewrite E; ring].
Qed.
Lemma factor_nz q x : 0 < q -> cabs2 x <= 1 -> cadd (cadd (cre 1) x) (cmul (cre q) (csub (cre 1) x)) <> cre 0.
Proof.
  intros Q H E. destruct x as [a b]. unfold cabs2, cre, cadd, cmul, csub in *. cbn in *. injection E as E1 E2. nra.
Qed.

(** * Time domain: products of factors 1 + rho x *)
Definition factors (rhos : list R) : list R := fold_right (fun rho p => map (fun k => nth k p 0 + rho * nth k (0 :: p) 0) (seq 0 (S (length p)))) [1] rhos.
Lemma factors_nth rho rhos k : nth k (factors (rho :: rhos)) 0 = nth k (factors rhos) 0 + rho * nth k (0 :: factors rhos) 0.
Proof.
  cbn [factors fold_right]. fold (factors rhos). set (p := factors rhos). destruct (Nat.lt_ge_cases k (S (length p))); [now rewrite nth_map_seq|].
  rewrite !nth_overflow; try lia; [ring|cbn [length]; lia|rewrite map_length, seq_length; lia].
Qed.
Lemma conv_factor rho rhos y n : conv_at (factors (rho :: rhos)) y n = conv_at (factors rhos) y n + rho * (match n with O => 0 | S n => conv_at (factors rhos) y n end).
Proof.
  rewrite conv_upto. rewrite (sum_upto_ext _ (fun k => nth k (factors rhos) 0 * nth (n - k) y 0 + rho * (nth k (0 :: factors rhos) 0 * nth (n - k) y 0))) by (intros; rewrite factors_nth; ring).
  rewrite sum_upto_add, sum_upto_scale, <- conv_upto. f_equal. f_equal. rewrite sum_upto_S. cbn [nth]. destruct n as [|n]; [cbn [sum_upto]; ring|].
  rewrite conv_upto. cbn [Nat.sub]. ring.
Qed.
Lemma conv_one y n : (n < length y)%nat -> conv_at [1] y n = nth n y 0.
Proof. intros H. rewrite conv_upto, sum_upto_S. cbn [nth]. rewrite Nat.sub_0_r, sum_upto_0; [ring|]. intros k _. destruct k; ring. Qed.
(** A signal weighted by s^n stays so through 1/(1 + rho x) for |rho| < s. *)
Lemma first_order (v : nat -> R) rho s C L : Rabs rho < s -> 0 <= C ->
  (forall n, (n < L)%nat -> Rabs (v n + rho * (match n with O => 0 | S n => v n end)) <= C * s ^ n) ->
  forall n, (n < L)%nat -> Rabs (v n) <= s / (s - Rabs rho) * C * s ^ n.
Proof.
  intros Hs HC H. assert (P : 0 < s) by (pose proof (Rabs_pos rho); lra). set (K := s / (s - Rabs rho)). assert (HK : K * (s - Rabs rho) = s) by (unfold K; field; lra).
  assert (K1 : 1 <= K). { apply (Rmult_le_reg_r (s - Rabs rho)); [lra|]. rewrite HK. pose proof (Rabs_pos rho). lra. }
  induction n as [|n IH]; intros Hn.
  - specialize (H 0%nat Hn). cbn [pow] in *. rewrite Rmult_0_r, Rplus_0_r in H. nra.
  - specialize (H (S n) Hn). specialize (IH ltac:(lia)). cbn beta iota in H. cbn [pow] in *. assert (Sn : 0 < s ^ n) by (apply pow_lt; lra).
    assert (T : Rabs (v (S n)) <= C * (s * s ^ n) + Rabs rho * Rabs (v n)).
    { rewrite <- Rabs_mult. replace (v (S n)) with ((v (S n) + rho * v n) - rho * v n) at 1 by ring. eapply Rle_trans; [apply Rabs_triang|]. rewrite Rabs_Ropp. lra. }
    assert (U : Rabs rho * Rabs (v n) <= Rabs rho * (K * C * s ^ n)) by (apply Rmult_le_compat_l; [apply Rabs_pos|auto]).
    replace (K * C * (s * s ^ n)) with (K * s * (C * s ^ n)) by ring. replace (K * s) with (s + K * Rabs rho) by lra. nra.
Qed.
Lemma inverse_weighted rhos s : 0 < s -> Forall (fun rho => Rabs rho < s) rhos ->
  exists K, 0 <= K /\ forall y C, 0 <= C -> (forall n, (n < length y)%nat -> Rabs (conv_at (factors rhos) y n) <= C * s ^ n) -> forall n, (n < length y)%nat -> Rabs (nth n y 0) <= K * C * s ^ n.
Proof.
  intros S F. induction F as [|rho rhos H F (K & HK & IH)].
  - exists 1. split; [lra|]. intros y C HC H n Hn. specialize (H n Hn). cbn [factors fold_right] in H. rewrite conv_one in H by auto. lra.
  - exists (K * (s / (s - Rabs rho))). assert (P : 0 <= s / (s - Rabs rho)) by (apply Rlt_le, Rdiv_lt_0_compat; lra). split; [now apply Rmult_le_pos|]. intros y C HC E n Hn.
    replace (K * (s / (s - Rabs rho)) * C) with (K * (s / (s - Rabs rho) * C)) by ring. apply IH; auto; [apply Rmult_le_pos; auto|].
    apply (first_order (conv_at (factors rhos) y) rho s C (length y)); auto. intros k Hk. specialize (E k Hk). now rewrite conv_factor in E.
Qed.
(** * Polynomials which agree everywhere have the same coefficients *)
Lemma poly_bound l : exists B, forall x, Rabs x <= 1 -> Rabs (fst (ceval l (cre x))) <= B /\ snd (ceval l (cre x)) = 0.
Proof.
  induction l as [|c l (B & IH)]; cbn [ceval]; [exists 0; intros; cbn; rewrite Rabs_R0; lra|]. exists (Rabs c + B). intros x H. destruct (IH x H) as (E & I). cbn. rewrite I. split; [|ring].
  rewrite Rmult_0_r, Rminus_0_r. eapply Rle_trans; [apply Rabs_triang|]. apply Rplus_le_compat_l. rewrite Rabs_mult. pose proof (Rabs_pos x). pose proof (Rabs_pos (fst (ceval l (cre x)))). nra.
Qed.
Lemma poly_zero l : (forall x, x <> 0 -> ceval l (cre x) = cre 0) -> forall k, nth k l 0 = 0.
Proof.
  induction l as [|c l IH]; intros H k; [now destruct k|]. assert (C0 : c = 0).
  { destruct (Req_dec c 0) as [|N]; auto. exfalso. destruct (poly_bound l) as (B & HB). pose proof (Rabs_pos_lt c N) as Pc.
    assert (PB : 0 <= B) by (destruct (HB 0) as (E & _); [rewrite Rabs_R0; lra|]; eapply Rle_trans; [apply Rabs_pos|exact E]).
    set (x := Rmin 1 (Rabs c / (2 * (B + 1)))). assert (D : 0 < Rabs c / (2 * (B + 1))) by (apply Rdiv_lt_0_compat; lra).
    assert (X0 : 0 < x) by (unfold x; apply Rmin_glb_lt; lra). assert (X1 : x <= 1) by apply Rmin_l. assert (X2 : x <= Rabs c / (2 * (B + 1))) by apply Rmin_r.
    specialize (H x ltac:(lra)). cbn [ceval] in H. destruct (HB x ltac:(rewrite Rabs_pos_eq; lra)) as (E & I). unfold cadd, cmul, cre in *. cbn in H. injection H as H _. cbn in E, I. rewrite I in H.
    assert (A : Rabs c = x * Rabs (fst (ceval l (x, 0)))). { replace c with (- (x * fst (ceval l (x, 0)))) by lra. rewrite Rabs_Ropp, Rabs_mult, (Rabs_pos_eq x) by lra. reflexivity. }
    assert (x * Rabs (fst (ceval l (x, 0))) <= Rabs c / (2 * (B + 1)) * B). { apply Rmult_le_compat; try lra. apply Rabs_pos. }
    assert (Rabs c / (2 * (B + 1)) * B < Rabs c). { replace (Rabs c / (2 * (B + 1)) * B) with (Rabs c * (B / (2 * (B + 1)))) by (field; lra). rewrite <- (Rmult_1_r (Rabs c)) at 2. apply Rmult_lt_compat_l; auto. apply (Rmult_lt_reg_r (2 * (B + 1))); [lra|]. unfold Rdiv. rewrite Rmult_assoc, Rinv_l by lra. lra. }
    lra. }
  subst c. destruct k as [|k]; [reflexivity|]. cbn [nth]. apply IH. intros x Hx. specialize (H x Hx). cbn [ceval] in H.
  assert (E : cmul (cre x) (ceval l (cre x)) = cre 0) by (rewrite <- H; ring). apply cmul_0 in E as [E|E]; auto. apply cre_inj in E. congruence.
Qed.
Lemma ceval_ge l x n : (length l <= n)%nat -> ceval l x = csum (fun j => cmul (cre (nth j l 0)) (cpow x j)) n.
Proof.
  intros H. rewrite ceval_sum. induction n as [|n IH]; [now replace (length l) with 0%nat by lia|]. destruct (Nat.eq_dec (length l) (S n)) as [->|N]; auto.
  cbn [csum]. rewrite <- IH by lia. rewrite (nth_overflow l (n:=n)) by lia. ring.
Qed.
Lemma poly_eq p q : (forall x, ceval p (cre x) = ceval q (cre x)) -> forall k, nth k p 0 = nth k q 0.
Proof.
  intros H k. set (n := Nat.max (length p) (length q)). set (d := map (fun j => nth j p 0 - nth j q 0) (seq 0 n)).
  assert (Ld : length d = n) by (unfold d; now rewrite map_length, seq_length).
  destruct (Nat.lt_ge_cases k n) as [Hk|Hk]; [|rewrite !nth_overflow by lia; reflexivity].
  assert (E : nth k d 0 = 0).
  { apply poly_zero. intros x _. rewrite ceval_sum, Ld. rewrite (csum_ext _ (fun j => cadd (cmul (cre (nth j p 0)) (cpow (cre x) j)) (cmul (cre (-1)) (cmul (cre (nth j q 0)) (cpow (cre x) j))))).
    2:{ intros j Hj. unfold d. rewrite nth_map_seq by auto. cbn [Nat.add]. replace (nth j p 0 - nth j q 0) with (nth j p 0 + -1 * nth j q 0) by ring. rewrite cre_add, cre_mul. ring. }
    rewrite csum_add, csum_mul, <- !ceval_ge by lia. rewrite H. apply Cx_eq; cbn; ring. }
  unfold d in E. rewrite nth_map_seq in E by auto. cbn [Nat.add] in E. lra.
Qed.
Lemma factors_length rhos : length (factors rhos) = S (length rhos).
Proof. induction rhos as [|r l IH]; [reflexivity|]. cbn [factors fold_right length]. fold (factors l). rewrite map_length, seq_length, IH. reflexivity. Qed.
Lemma factors_eval rhos x : ceval (factors rhos) x = cprod (map (fun rho => cadd (cre 1) (cmul (cre rho) x)) rhos).
Proof.
  induction rhos as [|rho rhos IH]; [cbn; apply Cx_eq; cbn; ring|]. cbn [map cprod]. rewrite <- IH. rewrite (ceval_sum (factors (rho :: rhos))), factors_length. cbn [length].
  rewrite (csum_ext _ (fun j => cadd (cmul (cre (nth j (factors rhos) 0)) (cpow x j)) (cmul (cre rho) (cmul (cre (nth j (0 :: factors rhos) 0)) (cpow x j))))) by (intros; rewrite factors_nth, cre_add, cre_mul; ring).
  rewrite csum_add, csum_mul, <- ceval_ge by (rewrite factors_length; lia). pose proof (ceval_ge (0 :: factors rhos) x (S (S (length rhos)))) as T. cbn [length] in T. rewrite factors_length in T. rewrite <- T by lia. cbn [ceval]. ring.
Qed.
(** The denominator is the product of 1 + rho x with |rho| < 1. *)
Definition pole_rho (k f : R) : R := (1 - / Rabs f * k) / (1 + / Rabs f * k).
Lemma pole_rho_lt k f : 0 < k -> f <> 0 -> Rabs (pole_rho k f) < 1.
Proof.
  intros K F. assert (Q : 0 < / Rabs f * k) by (apply Rmult_lt_0_compat; auto; apply Rinv_0_lt_compat, Rabs_pos_lt; auto). unfold pole_rho. set (q := / Rabs f * k) in *.
  unfold Rdiv. rewrite Rabs_mult, (Rabs_pos_eq (/ (1 + q))) by (apply Rlt_le, Rinv_0_lt_compat; lra). apply (Rmult_lt_reg_r (1 + q)); [lra|]. rewrite Rmult_assoc, Rinv_l by lra. rewrite Rmult_1_r, Rmult_1_l. unfold Rabs. destruct (Rcase_abs (1 - q)); lra.
Qed.
Lemma poles_factors poles k x : 0 < k -> Forall (fun f => f <> 0) poles ->
  cprod (map (fun f => cadd (cadd (cre 1) x) (cmul (cre (/ Rabs f)) (cmul (cre k) (csub (cre 1) x)))) poles) = cmul (corner_product poles (cre k)) (ceval (factors (map (pole_rho k) poles)) x).
Proof.
  intros K F. rewrite factors_eval. unfold corner_product. induction F as [|f poles H F IH]; cbn [map cprod]; [ring|]. rewrite IH.
  assert (Q : 0 < / Rabs f * k) by (apply Rmult_lt_0_compat; auto; apply Rinv_0_lt_compat, Rabs_pos_lt; auto).
  assert (E : cadd (cadd (cre 1) x) (cmul (cre (/ Rabs f)) (cmul (cre k) (csub (cre 1) x))) = cmul (cadd (cre 1) (cmul (cre (/ Rabs f)) (cre k))) (cadd (cre 1) (cmul (cre (pole_rho k f)) x))).
  { pose proof (Rabs_pos_lt f H). unfold pole_rho. apply Cx_eq; cbn; field; split; lra. }
  rewrite E. ring.
Qed.
Lemma common_rate rhos : Forall (fun rho => Rabs rho < 1) rhos -> exists s, 0 < s < 1 /\ Forall (fun rho => Rabs rho < s) rhos.
Proof.
  induction 1 as [|rho rhos H F (s & Hs & G)]; [exists (/ 2); split; auto; lra|]. exists (Rmax s ((Rabs rho + 1) / 2)).
  assert (s <= Rmax s ((Rabs rho + 1) / 2)) by apply Rmax_l. assert ((Rabs rho + 1) / 2 <= Rmax s ((Rabs rho + 1) / 2)) by apply Rmax_r.
  split; [split; [lra|apply Rmax_lub_lt; lra]|]. constructor; [lra|]. eapply Forall_impl; [|exact G]. cbn beta. intros. lra.
Qed.
Lemma conv_ext p q y n : (forall k, nth k p 0 = nth k q 0) -> conv_at p y n = conv_at q y n.
Proof. intros H. rewrite !conv_upto. apply sum_upto_ext. intros. now rewrite H. Qed.
Lemma sum_upto_abs f n : Rabs (sum_upto f n) <= sum_upto (fun k => Rabs (f k)) n.
Proof. induction n as [|n IH]; cbn [sum_upto]; [rewrite Rabs_R0; lra|]. eapply Rle_trans; [apply Rabs_triang|]. lra. Qed.
Lemma sum_upto_le f g n : (forall k, (k < n)%nat -> f k <= g k) -> sum_upto f n <= sum_upto g n.
Proof. induction n as [|n IH]; intros H; cbn [sum_upto]; [lra|]. specialize (IH ltac:(auto)). specialize (H n ltac:(lia)). lra. Qed.
Lemma sum_upto_cut f m n : (forall k, (m <= k)%nat -> f k = 0) -> (m <= n)%nat -> sum_upto f n = sum_upto f m.
Proof. intros H L. induction L as [|n L IH]; auto. cbn [sum_upto]. rewrite IH, H by lia. ring. Qed.
Lemma sum_upto_mono f m n : (forall k, 0 <= f k) -> (m <= n)%nat -> sum_upto f m <= sum_upto f n.
Proof. intros H L. induction L as [|n L IH]; [lra|]. cbn [sum_upto]. specialize (H n). lra. Qed.
Lemma conv_bound b x n M : 0 <= M -> Forall (fun v => Rabs v <= M) x -> Rabs (conv_at b x n) <= sum_upto (fun k => Rabs (nth k b 0)) (length b) * M.
Proof.
  intros HM F. rewrite conv_upto. eapply Rle_trans; [apply sum_upto_abs|]. eapply Rle_trans; [apply (sum_upto_le _ (fun k => M * Rabs (nth k b 0)))|].
  - intros k _. rewrite Rabs_mult, Rmult_comm. apply Rmult_le_compat_r; [apply Rabs_pos|]. destruct (Nat.lt_ge_cases (n - k) (length x)) as [H|H].
    + rewrite Forall_forall in F. apply F, nth_In, H.
    + rewrite nth_overflow, Rabs_R0; auto.
  - rewrite sum_upto_scale, (Rmult_comm _ M). apply Rmult_le_compat_l; auto. destruct (Nat.le_ge_cases (S n) (length b)) as [H|H].
    + apply sum_upto_mono; auto. intros. apply Rabs_pos.
    + rewrite (sum_upto_cut _ (length b)); auto; [lra|]. intros k Hk. rewrite nth_overflow, Rabs_R0; auto.
Qed.
Lemma sum_of_upto l : sum_of l = sum_upto (fun k => nth k l 0) (length l).
Proof. unfold sum_of. induction l as [|a l IH]; [reflexivity|]. cbn [fold_right length]. rewrite sum_upto_S. cbn [nth]. now rewrite IH. Qed.
Lemma sum_of_ge l n : (length l <= n)%nat -> sum_upto (fun k => nth k l 0) n = sum_of l.
Proof. intros H. rewrite sum_of_upto. apply sum_upto_cut; auto. intros k Hk. now apply nth_overflow. Qed.
(** Zero initial memory. *)
Lemma zero_state b a x : a <> [] -> b <> [] -> nth 0 a 0 = 1 -> x <> [] ->
  exists y zf, lfilter b a x (repeat 0 (Nat.max (length a) (length b) - 1)) = Ok (y, zf) /\ length y = length x /\ forall n, (n < length x)%nat -> conv_at a y n = conv_at b x n.
Proof.
  intros Na Nb A0 Nx. destruct (lfilter_spec b a x (repeat 0 (Nat.max (length a) (length b) - 1))) as (y & zf & E & L1 & L2 & E1 & _); auto.
  { repeat split; auto; [lra|]. now rewrite repeat_length. }
  exists y, zf. split; auto. split; auto. intros n Hn. specialize (E1 n Hn). rewrite A0 in E1. rewrite nth_repeat in E1.
  assert (T : conv_at a y n = nth n y 0 + conv_at (fb a) y n). { rewrite !conv_upto, !sum_upto_S. unfold fb. destruct a as [|a0 a]; [congruence|]. cbn [nth tl] in *. subst a0. rewrite Nat.sub_0_r. ring. }
  rewrite T, E1. field.
Qed.
Lemma bounded_output b a rhos : (forall k, nth k a 0 = nth k (factors rhos) 0) -> Forall (fun rho => Rabs rho < 1) rhos ->
  exists K, 0 <= K /\ forall x y M, length y = length x -> (forall n, (n < length x)%nat -> conv_at a y n = conv_at b x n) -> Forall (fun v => Rabs v <= M) x -> Forall (fun v => Rabs v <= K * M) y.
Proof.
  intros Ea F. destruct (inverse_weighted rhos 1 ltac:(lra) F) as (K & HK & H). set (B := sum_upto (fun k => Rabs (nth k b 0)) (length b)).
  assert (HB : 0 <= B). { unfold B. rewrite <- (sum_upto_0 (fun _ => 0) (length b)) by auto. apply sum_upto_le. intros. apply Rabs_pos. }
  exists (K * B). split; [now apply Rmult_le_pos|]. intros x y M Ly E FM. apply Forall_forall. intros v Hv. apply (In_nth _ _ 0) in Hv as (n & Hn & <-).
  assert (HM : 0 <= M). { destruct x as [|x0 x]; [cbn in Ly; lia|]. inversion FM; subst. eapply Rle_trans; [apply Rabs_pos|eauto]. }
  specialize (H y (B * M) ltac:(now apply Rmult_le_pos)). replace (K * B * M) with (K * (B * M) * 1 ^ n) by (rewrite pow1; ring). apply H; auto.
  intros k Hk. rewrite <- (conv_ext a) by auto. rewrite E by lia. rewrite pow1, Rmult_1_r. apply conv_bound; auto.
Qed.
Lemma step_settles b a rhos g : (forall k, nth k a 0 = nth k (factors rhos) 0) -> Forall (fun rho => Rabs rho < 1) rhos -> sum_of b = g * sum_of a ->
  forall c eps, 0 < eps -> exists N, forall L y, length y = L -> (forall n, (n < L)%nat -> conv_at a y n = conv_at b (repeat c L) n) -> forall n, (N <= n < L)%nat -> Rabs (nth n y 0 - g * c) < eps.
Proof.
  intros Ea F Sg c eps He. destruct (common_rate rhos F) as (s & Hs & G). destruct (inverse_weighted rhos s ltac:(lra) G) as (K & HK & H).
  set (h := fun n => c * (sum_upto (fun k => nth k b 0) (S n) - g * sum_upto (fun k => nth k a 0) (S n))). set (m := Nat.max (length a) (length b)).
  assert (H0 : forall n, (m <= n)%nat -> h n = 0) by (intros n Hn; unfold h; rewrite !sum_of_ge by lia; rewrite Sg; ring).
  set (C := sum_upto (fun n => Rabs (h n) / s ^ n) m). assert (Sp : forall n, 0 < s ^ n) by (intros; apply pow_lt; lra).
  assert (HT : forall n, 0 <= Rabs (h n) / s ^ n). { intros n. unfold Rdiv. apply Rmult_le_pos; [apply Rabs_pos|]. apply Rlt_le, Rinv_0_lt_compat, Sp. }
  assert (HC : 0 <= C) by (unfold C; apply (sum_upto_mono _ 0 m); [auto|lia]).
  assert (Hh : forall n, Rabs (h n) <= C * s ^ n).
  { intros n. destruct (Nat.lt_ge_cases n m) as [L|L].
    - assert (T : Rabs (h n) / s ^ n <= C). { unfold C. eapply Rle_trans; [|apply (sum_upto_mono _ (S n) m); auto; lia]. cbn [sum_upto]. pose proof (sum_upto_mono (fun n => Rabs (h n) / s ^ n) 0 n HT ltac:(lia)) as P. cbn [sum_upto] in P. lra. }
      replace (Rabs (h n)) with (Rabs (h n) / s ^ n * s ^ n) by (field; specialize (Sp n); lra). apply Rmult_le_compat_r; auto. apply Rlt_le, Sp.
    - rewrite H0, Rabs_R0 by auto. apply Rmult_le_pos; auto. apply Rlt_le, Sp. }
  destruct (pow_lt_1_zero s ltac:(rewrite Rabs_pos_eq; lra) (eps / (K * C + 1))) as (N & HN). { apply Rdiv_lt_0_compat; auto. pose proof (Rmult_le_pos K C HK HC). lra. }
  exists N. intros L y Ly E n (Hn & Hl). set (e := map (fun v => v - g * c) y). assert (Le : length e = L) by (unfold e; now rewrite map_length).
  assert (Ne : forall j, (j < L)%nat -> nth j e 0 = nth j y 0 - g * c) by (intros j Hj; unfold e; now rewrite (map_nth_lt _ _ _ 0) by lia).
  rewrite <- Ne by auto. specialize (HN n Hn). rewrite Rabs_pos_eq in HN by (apply Rlt_le, Sp). pose proof (Rmult_le_pos K C HK HC) as KC.
  apply Rle_lt_trans with (K * C * s ^ n).
  - apply H; try lia; auto. rewrite Le. intros j Hj. replace (conv_at (factors rhos) e j) with (h j); auto.
    rewrite <- (conv_ext a) by auto.
    assert (T : conv_at a e j = conv_at a y j + - (g * c) * sum_upto (fun k => nth k a 0) (S j)). { rewrite !conv_upto, <- sum_upto_scale, <- sum_upto_add. apply sum_upto_ext. intros k Hk. rewrite Ne by lia. ring. }
    assert (T2 : conv_at b (repeat c L) j = c * sum_upto (fun k => nth k b 0) (S j)). { rewrite conv_upto, <- sum_upto_scale. apply sum_upto_ext. intros k Hk. rewrite repeat_nth by lia. ring. }
    rewrite T, E, T2 by auto. unfold h. ring.
  - apply Rle_lt_trans with ((K * C + 1) * s ^ n); [specialize (Sp n); nra|]. replace eps with ((K * C + 1) * (eps / (K * C + 1))) by (field; lra). apply Rmult_lt_compat_l; lra.
Qed.

(** * Designs *)
Lemma corner_cre fs k : Forall (fun f => f <> 0) fs -> corner_product fs (cre k) = cre (corner_at fs k).
Proof.
  intros F. unfold corner_product, corner_at. induction F as [|f fs H F IH]; cbn [map cprod prod_R fold_right]; auto. rewrite IH. fold (prod_R (map (fun f0 => 1 + k / Rabs f0) fs)). rewrite cre_mul, cre_add. unfold Rdiv. rewrite (Rmult_comm k), cre_mul. reflexivity.
Qed.
Lemma design_spec zeros poles dc fs osr : design zeros poles dc fs osr ->
  let m := Nat.max (length zeros) (length poles) in let k := 2 * (fs * osr) in
  exists b a, get_ctle_filter zeros poles dc fs osr = Ok (Some (b, a)) /\ length b = S m /\ length a = S m /\ nth 0 a 0 = 1 /\
    let d := cre (corner_at poles k) in d <> cre 0 /\
    forall x, cmul d (ceval b x) = cmul (cre (linear_gain dc)) (cmul (cpow (cadd (cre 1) x) (m - length zeros)) (cprod (map (fun f => cadd (cadd (cre 1) x) (cmul (cre (/ Rabs f)) (cmul (cre k) (csub (cre 1) x)))) zeros))) /\
              cmul d (ceval a x) = cmul (cpow (cadd (cre 1) x) (m - length poles)) (cprod (map (fun f => cadd (cadd (cre 1) x) (cmul (cre (/ Rabs f)) (cmul (cre k) (csub (cre 1) x)))) poles)).
Proof.
  intros (Nz & Np & Fz & Fp & Pos & Lead) m k. destruct (filter_spec zeros poles dc fs osr Nz Np Fz Fp Pos) as (b & a & d & b0 & Hd & E & Lb & La & A0 & B0 & Ed & Eb & V). fold m k in Lb, La, Ed, Eb, V.
  rewrite corner_cre in Ed by auto. rewrite corner_cre in Eb by auto. apply cre_inj in Ed. fold (linear_gain dc) in Eb, V. rewrite <- !cre_mul in Eb. apply cre_inj in Eb.
  assert (Eb0 : b0 = linear_gain dc * corner_at zeros k / corner_at poles k). { rewrite <- Ed, <- Eb. field. lra. }
  exists b, a. rewrite trim_small_keep in E. 2:{ rewrite B0, Eb0. eapply Rlt_le_trans; [exact Lead|]. apply Rle_abs. }
  rewrite <- Ed. repeat (split; auto). apply cre_nz. lra.
Qed.
Lemma design_rhos zeros poles dc fs osr b a : design zeros poles dc fs osr -> (length zeros <= length poles)%nat -> get_ctle_filter zeros poles dc fs osr = Ok (Some (b, a)) ->
  a <> [] /\ b <> [] /\ nth 0 a 0 = 1 /\ exists rhos, (forall k, nth k a 0 = nth k (factors rhos) 0) /\ Forall (fun rho => Rabs rho < 1) rhos.
Proof.
  intros D L E. destruct (design_spec _ _ _ _ _ D) as (b' & a' & E' & Lb & La & A0 & Hd & V). rewrite E in E'. injection E' as <- <-. destruct D as (_ & _ & _ & Fp & Pos & _).
  split; [intros ->; discriminate|]. split; [intros ->; discriminate|]. split; auto. exists (map (pole_rho (2 * (fs * osr))) poles). split.
  - apply poly_eq. intros x. apply (cmul_cancel _ _ _ Hd). destruct (V (cre x)) as (_ & Va). rewrite Va, poles_factors, corner_cre by (auto; lra). replace (_ - _)%nat with 0%nat by lia. cbn [cpow]. ring.
  - apply Forall_forall. intros r Hr. apply in_map_iff in Hr as (f & <- & Hf). rewrite Forall_forall in Fp. apply pole_rho_lt; auto. lra.
Qed.
Lemma design_dc zeros poles dc fs osr b a : design zeros poles dc fs osr -> get_ctle_filter zeros poles dc fs osr = Ok (Some (b, a)) ->
  sum_of b = linear_gain dc * sum_of a /\ 0 < sum_of a.
Proof.
  intros D E. destruct (design_spec _ _ _ _ _ D) as (b' & a' & E' & Lb & La & A0 & Hd & V). rewrite E in E'. injection E' as <- <-.
  set (m := Nat.max (length zeros) (length poles)) in *. destruct (V (cre 1)) as (Vb & Va). rewrite !sum_ceval in *.
  assert (T : forall fs0 k, cprod (map (fun f => cadd (cadd (cre 1) (cre 1)) (cmul (cre (/ Rabs f)) (cmul (cre k) (csub (cre 1) (cre 1))))) fs0) = cre (2 ^ length fs0)).
  { intros l k. induction l as [|f l IH]; cbn [map cprod length pow]; auto. rewrite IH. apply Cx_eq; cbn; ring. }
  rewrite T in Va, Vb. replace (cadd (cre 1) (cre 1)) with (cre 2) in Va, Vb by (apply Cx_eq; cbn; ring). rewrite cpow_cre in Va, Vb. rewrite <- !cre_mul, <- pow_add in Va. rewrite <- !cre_mul, <- pow_add in Vb.
  replace (m - length zeros + length zeros)%nat with m in Vb by lia. replace (m - length poles + length poles)%nat with m in Va by lia. rewrite <- ?cre_mul in Vb. apply cre_inj in Va, Vb.
  destruct D as (_ & _ & _ & Fp & Pos & _). set (d := corner_at _ _) in *.
  assert (D0 : 0 < d). { destruct (corner_pos poles (2 * (fs * osr)) Fp ltac:(lra)) as (r & Hr & Er). fold (corner_product poles (cre (2 * (fs * osr)))) in Er. rewrite corner_cre in Er by auto. apply cre_inj in Er. unfold d. lra. }
  pose proof (pow_lt 2 m ltac:(lra)) as P2. split.
  - apply (Rmult_eq_reg_l d); [|lra]. rewrite Vb, <- Va. ring.
  - apply (Rmult_lt_reg_l d); auto. lra.
Qed.
