(** C74: decisions taken in double precision: slicer, quantiser and demapper. *)
From Coq Require Import ZArith Reals Lra Lia Psatz String.
From Flocq Require Import Core BinarySingleNaN.
From Verif Require Import Py B_list M_aux M_symbol M_slicer S_rx P_slicer P_map M_f64 S_f64 P_f64.
Import List.
Open Scope R_scope.

(** The slicer always returns one of its levels, and no level is nearer to the sample than the returned one by more than a
    relative 2^-52. *)
Theorem C74_nearest : forall (levels xs : list f64), levels <> [] -> Forall fine levels -> Forall fine xs ->
  exists out, slicer64 levels xs = Ok out /\ length out = length xs /\
  forall n, (n < length xs)%nat -> exists i, (i < length levels)%nat /\ level out n = level levels i /\
    forall j, (j < length levels)%nat -> distance (level xs n) (level levels i) <= (1 + two (-52)) * distance (level xs n) (level levels j).
Proof.
  intros levels xs N L X. destruct (slicer64_spec levels xs N L X) as (idx & E & Len & H). exists (map (level levels) idx). rewrite map_length. split; auto. split; auto.
  intros n Hn. destruct (H n Hn) as (Hi & H1 & _). exists (nth n idx 0%nat). split; auto. split; [unfold level at 1; rewrite (map_nth_lt _ _ _ 0%nat) by lia; reflexivity|].
  intros j Hj. apply nearest_of_rnd. auto.
Qed.
Print Assumptions C74_nearest.
(** So a level that is nearest by more than that is the one returned. *)
Theorem C74_correct : forall (levels xs : list f64) (n i : nat), Forall fine levels -> Forall fine xs -> (n < length xs)%nat -> (i < length levels)%nat ->
  (forall j, (j < length levels)%nat -> j <> i -> (1 + two (-52)) * distance (level xs n) (level levels i) < distance (level xs n) (level levels j)) ->
  exists out, slicer64 levels xs = Ok out /\ level out n = level levels i.
Proof.
  intros levels xs n i L X Hn Hi H. assert (N : levels <> []) by (destruct levels; [cbn in Hi; lia|discriminate]).
  destruct (C74_nearest levels xs N L X) as (out & E & _ & P). exists out. split; auto. destruct (P n Hn) as (k & Hk & O & D). rewrite O. destruct (Nat.eq_dec k i) as [->|C]; auto.
  specialize (H k Hk C). specialize (D i Hi). lra.
Qed.
Print Assumptions C74_correct.
(** A sample equal to a level comes back unchanged, whatever the other levels are. *)
Theorem C74_level_fixed : forall (levels xs : list f64) (n i : nat), Forall fine levels -> Forall fine xs -> (n < length xs)%nat -> (i < length levels)%nat ->
  val (level xs n) = val (level levels i) -> exists out, slicer64 levels xs = Ok out /\ val (level out n) = val (level xs n).
Proof.
  intros levels xs n i L X Hn Hi H. assert (N : levels <> []) by (destruct levels; [cbn in Hi; lia|discriminate]).
  destruct (C74_nearest levels xs N L X) as (out & E & _ & P). exists out. split; auto. destruct (P n Hn) as (k & Hk & O & D). rewrite O. specialize (D i Hi).
  assert (Z : distance (level xs n) (level levels i) = 0) by (unfold distance; rewrite <- H; replace (val (level xs n) - val (level xs n)) with 0 by ring; apply Rabs_R0).
  rewrite Z, Rmult_0_r in D. unfold distance in D. pose proof (Rabs_pos (val (level xs n) - val (level levels k))).
  assert (Rabs (val (level xs n) - val (level levels k)) = 0) by lra. destruct (Req_dec (val (level xs n) - val (level levels k)) 0); [lra|]. apply Rabs_no_R0 in H2. lra.
Qed.
Print Assumptions C74_level_fixed.

Lemma two_52 : two (-52) * two 52 = 1.
Proof. unfold two. rewrite <- bpow_plus. reflexivity. Qed.
Lemma two_pos e : 0 < two e.
Proof. apply bpow_gt_0. Qed.
(** Above the highest level the slicer saturates, as long as the sample is not 2^52 times further away than the level distance. *)
Theorem C74_saturates : forall (levels xs : list f64) (n : nat), Forall fine levels -> Forall fine xs -> (n < length xs)%nat -> increasing levels -> levels <> [] ->
  let last := level levels (length levels - 1) in
  (val last <= val (level xs n) -> (forall j, (j < length levels - 1)%nat -> val (level xs n) - val last < two 52 * (val last - val (level levels j))) ->
   exists out, slicer64 levels xs = Ok out /\ level out n = last) /\
  (val (level xs n) <= val (level levels 0) -> exists out, slicer64 levels xs = Ok out /\ level out n = level levels 0).
Proof.
  intros levels xs n L X Hn I N last. assert (0 < length levels)%nat by (destruct levels; [congruence|cbn; lia]). pose proof two_52 as T. pose proof (two_pos (-52)) as TP. split.
  - intros A B. apply C74_correct; auto; try lia. intros j Hj Dj. specialize (I j (length levels - 1)%nat ltac:(lia)). fold last in I. specialize (B j ltac:(lia)).
    unfold distance. fold last. rewrite !Rabs_right by lra. apply Rmult_lt_compat_l with (r := two (-52)) in B; auto.
    replace (two (-52) * (two 52 * (val last - val (level levels j)))) with (val last - val (level levels j)) in B by (rewrite <- Rmult_assoc, T; lra). lra.
  - intros A. destruct (slicer64_spec levels xs N L X) as (idx & E & Len & P). eexists. split; [exact E|]. unfold level at 1. rewrite (map_nth_lt _ _ _ 0%nat) by lia.
    destruct (P n Hn) as (Hi & H1 & H2). destruct (nth n idx 0%nat) as [|i] eqn:Ei; auto. exfalso. specialize (H2 0%nat ltac:(lia)). apply rnd_lt in H2. specialize (I 0%nat (S i) ltac:(lia)).
    unfold distance in H2. rewrite !Rabs_left1 in H2 by lra. lra.
Qed.
Print Assumptions C74_saturates.
(** On that range a larger sample never gives a lower level. *)
Theorem C74_monotone : forall (levels xs : list f64) (m n : nat), Forall fine levels -> Forall fine xs -> (m < length xs)%nat -> (n < length xs)%nat -> increasing levels -> levels <> [] ->
  val (level xs m) <= val (level xs n) ->
  (forall i j, (i < j < length levels)%nat -> val (level xs n) - val (level levels j) < two 52 * (val (level levels j) - val (level levels i))) ->
  exists out, slicer64 levels xs = Ok out /\ val (level out m) <= val (level out n).
Proof.
  intros levels xs m n L X Hm Hn I N Hx B. destruct (slicer64_spec levels xs N L X) as (idx & E & Len & P). eexists. split; [exact E|]. unfold level at 1 3. rewrite !(map_nth_lt _ _ _ 0%nat) by lia.
  destruct (P m Hm) as (Hj & _ & J2). destruct (P n Hn) as (Hi & I1 & _). set (j := nth m idx 0%nat) in *. set (i := nth n idx 0%nat) in *.
  destruct (Nat.lt_trichotomy j i) as [C|[->|C]]; [apply Rlt_le; apply I; lia|lra|]. exfalso.
  pose proof (I i j ltac:(lia)) as Lij. specialize (B i j ltac:(lia)). specialize (J2 i C). specialize (I1 j Hj). pose proof (rnd_lt _ _ J2) as J3.
  set (x := level xs m) in *. set (y := level xs n) in *. set (li := level levels i) in *. set (lj := level levels j) in *.
  pose proof two_52 as T. pose proof (two_pos (-52)) as TP.
  destruct (Rle_lt_dec (val lj) (val y)) as [Q|Q].
  - apply nearest_of_rnd in I1. unfold distance in I1. rewrite !Rabs_right in I1 by lra. apply Rmult_lt_compat_l with (r := two (-52)) in B; auto.
    replace (two (-52) * (two 52 * (val lj - val li))) with (val lj - val li) in B by (rewrite <- Rmult_assoc, T; lra). lra.
  - assert (val li < val x).
    { destruct (Rle_lt_dec (val x) (val li)) as [W|W]; auto. unfold distance in J3. rewrite !Rabs_left1 in J3 by lra. lra. }
    assert (A1 : rnd (distance y li) >= rnd (distance x li)) by (apply Rle_ge, rnd_le; unfold distance; rewrite !Rabs_right by lra; lra).
    assert (A2 : rnd (distance y lj) <= rnd (distance x lj)) by (apply rnd_le; unfold distance; rewrite !Rabs_left1 by lra; lra). lra.
Qed.
Print Assumptions C74_monotone.
(** A sample that is not finite: every distance is infinite (or nan), so the first level is returned. *)
Theorem C74_nonfinite : forall (levels : list f64) (x : f64), levels <> [] -> Forall (fun l => is_finite l = true) levels -> is_finite x = false ->
  slicer64 levels [x] = Ok [hd x levels].
Proof.
  intros levels x N L F. destruct levels as [|l0 ls]; [congruence|]. cbn [hd]. inversion L as [|? ? F0 Fs]; subst.
  unfold slicer64. cbn [length Nat.eqb map_res]. unfold slice_index64. cbn [map argmin64].
  assert (A : forall l : f64, is_finite l = true -> abs64 (sub64 x l) = abs64 (sub64 x l0)).
  { intros l Fl. destruct x as [|sx| |]; try discriminate; [|reflexivity]. destruct l; try discriminate; destruct l0; try discriminate; reflexivity. }
  assert (B : less64 (abs64 (sub64 x l0)) (abs64 (sub64 x l0)) = false) by (destruct x as [|sx| |]; try discriminate; destruct l0; try discriminate; reflexivity).
  assert (C : forall k, argmin64_from (abs64 (sub64 x l0)) 0 k (map (fun l => abs64 (sub64 x l)) ls) = 0%nat).
  { clear N L. induction Fs as [|l ls Fl Fs IH]; intros k; cbn [map argmin64_from]; auto. rewrite A by auto. rewrite B. apply IH. }
  rewrite C. reflexivity.
Qed.
Print Assumptions C74_nonfinite.

(** Equality of results of computations on doubles, by computing. *)
Lemma computed (r : res (list f64)) (l : list f64) : (match r with Ok o => map B2SF o = map B2SF l | Raise _ => False end) -> r = Ok l.
Proof.
  destruct r as [o|]; [|tauto]. intros H. f_equal. revert l H. induction o as [|a o IH]; intros [|b l] H; cbn [map] in H; try discriminate; auto. injection H as Ha Ho. f_equal; auto. now apply B2SF_inj.
Qed.
Lemma ov m e : ((Z.abs m <=? 2 ^ 53) && (-1074 <=? e) && (e <=? 900))%Z = true -> val (of_int m e) = IZR m * bpow radix2 e.
Proof. intros H. apply of_int_val; lia. Qed.
Ltac ovals := repeat match goal with |- context [val (of_int ?m ?e)] => rewrite (ov m e eq_refl) end; change (bpow radix2 0) with 1.
Definition pam4 : list f64 := map (fun k => of_int k 0) [-3; -1; 1; 3]%Z.
(** (Finding.)  The nearest level is not always returned: 2^-60 is closer to 1 than to -1, but both distances round to 1 and
    the first of them wins. *)
Theorem C74_exact_refuted : exists (levels : list f64) (x : f64), increasing levels /\ slicer64 levels [x] = Ok [level levels 0] /\
  distance x (level levels 1) < distance x (level levels 0).
Proof.
  exists [of_int (-1) 0; of_int 1 0], (of_int 1 (-60)). split; [|split].
  - intros i j H. cbn [length] in H. assert (i = 0 /\ j = 1)%nat as [-> ->] by lia. unfold level. cbn [nth]. ovals. lra.
  - apply computed. vm_compute. reflexivity.
  - unfold level, distance. cbn [nth]. ovals.
    assert (0 < bpow radix2 (-60) <= 1) by (split; [apply bpow_gt_0|]; change 1 with (bpow radix2 0); apply bpow_le; lia). rewrite Rabs_left1, Rabs_right by lra. lra.
Qed.
Print Assumptions C74_exact_refuted.
(** (Finding.)  A sample far above the constellation is decided as the LOWEST level: at 2^60 all four PAM4 distances round to
    the same number.  Plus infinity, too, gives -3. *)
Theorem C74_saturation_refuted : slicer64 pam4 [of_int 4 0; of_int 1 60; B754_infinity false] = Ok [of_int 3 0; of_int (-3) 0; of_int (-3) 0].
Proof. apply computed. vm_compute. reflexivity. Qed.
Print Assumptions C74_saturation_refuted.
(** The slicer raises for no samples at all, except without levels: then ValueError, also on an empty signal. *)
Theorem C74_raises : forall (levels xs : list f64) (e : exn), slicer64 levels xs = Raise e <-> levels = [] /\ e = ValueError.
Proof.
  intros levels xs e. split; [|intros [-> ->]; reflexivity]. intros H. destruct levels as [|l ls]; [unfold slicer64 in H; cbn in H; split; congruence|]. exfalso. unfold slicer64 in H. cbn [length Nat.eqb] in H.
  induction xs as [|x xs IH]; [discriminate|]. cbn [map_res] in H. unfold slice_index64, argmin64 in H. cbn [map bind] in H. unfold slice_index64, argmin64 in IH. cbn [map bind] in IH.
  destruct (map_res _ xs) as [v|]; [discriminate|]. apply IH. exact H.
Qed.
Print Assumptions C74_raises.
Example C74_slicer_case : slicer64 pam4 [of_int 5 (-1); of_int (-1) (-4); of_int 100 0; of_int (-1) 0; of_int 0 0] = Ok [of_int 3 0; of_int (-1) 0; of_int 3 0; of_int (-1) 0; of_int (-1) 0] /\
  Forall fine pam4 /\ increasing pam4.
Proof.
  split; [apply computed; vm_compute; reflexivity|]. split.
  - unfold pam4. cbn [map]. repeat (apply Forall_cons; [apply of_int_fine; lia|]). apply Forall_nil.
  - intros i j H. unfold level, pam4 in *. cbn [map length] in H. assert (i = 0 \/ i = 1 \/ i = 2)%nat as [-> | [-> | ->]] by lia; (assert (j = 1 \/ j = 2 \/ j = 3)%nat as [-> | [-> | ->]] by lia); try lia; cbn [map nth]; ovals; lra.
Qed.

(** The quantiser: with at most 53 bits (at most 63 of them fractional) every output is a value of the format; inside the range the
    error is at most half an LSB, up to a relative 2^-52; outside it the nearer end of the range is returned (above the range: if the
    excess is below 2^52 LSB). *)
Theorem C74_quantize : forall (tb : nat) (fb : Z) (ty : string) (xs : list f64),
  (1 <= tb <= 53)%nat -> (fb <= 63)%Z -> ty = "u"%string \/ ty = "s"%string \/ ty = "ss"%string -> Forall fine xs ->
  let signed := negb (ty =? "u")%string in
  let lo := q_low tb signed (ty =? "ss")%string in let hi := q_high tb signed in let lsb := / two (Z.max 0 fb) in
  exists out, quantize64 tb fb ty xs = Ok out /\ length out = length xs /\
  forall n, (n < length xs)%nat -> let x := val (level xs n) in let y := val (level out n) in
    (exists k, (lo <= k <= hi)%Z /\ y = IZR k * lsb) /\
    (IZR lo * lsb <= x <= IZR hi * lsb -> Rabs (x - y) <= (1 + two (-52)) * (lsb / 2)) /\
    (x <= IZR lo * lsb -> y = IZR lo * lsb) /\
    (IZR hi * lsb <= x < IZR hi * lsb + two 52 * lsb -> y = IZR hi * lsb).
Proof.
  intros tb fb ty xs Htb Hfb HT X signed lo hi lsb. assert (S1 : ty_signed ty = signed) by (destruct HT as [-> | [-> | ->]]; reflexivity).
  destruct (quant_ints_eq tb ty ltac:(lia) HT) as [E LH]. rewrite S1 in E, LH. fold lo hi in E, LH.
  set (N := Z.to_nat (hi - lo + 1)) in *. set (L := map (quant_level64 fb) (map (fun i => lo + Z.of_nat i)%Z (seq 0 N))).
  assert (Bnd : (- 2 ^ 53 <= lo /\ hi <= 2 ^ 53)%Z).
  { assert (P1 : (0 < 2 ^ Z.of_nat tb <= 2 ^ 53)%Z) by (split; [apply Z.pow_pos_nonneg; lia|apply Z.pow_le_mono_r; lia]).
    assert (P2 : (0 < 2 ^ (Z.of_nat tb - 1) <= 2 ^ 53)%Z) by (split; [apply Z.pow_pos_nonneg; lia|apply Z.pow_le_mono_r; lia]).
    unfold lo, hi, q_low, q_high. destruct signed, (ty =? "ss")%string; lia. }
  assert (LL : length L = N) by (unfold L; now rewrite !map_length, seq_length).
  assert (LV : forall i, (i < N)%nat -> val (level L i) = IZR (lo + Z.of_nat i) * lsb /\ fine (level L i)).
  { intros i Hi. unfold level, L. rewrite map_map, (map_nth_lt _ _ _ 0%nat) by (now rewrite seq_length). rewrite seq_nth by auto. cbn [Nat.add].
    apply quant_level_val; auto. unfold N in Hi. lia. }
  assert (FL : Forall fine L). { apply Forall_forall. intros l Hl. apply (In_nth L l B754_nan) in Hl as (i & Hi & <-). apply LV. lia. }
  assert (NN : L <> []) by (intros C; rewrite C in LL; cbn in LL; unfold N in LL; lia).
  assert (PL : 0 < lsb) by (apply Rinv_0_lt_compat, bpow_gt_0).
  assert (INC : increasing L). { intros i j H. rewrite !(fun i h => proj1 (LV i h)) by lia. apply Rmult_lt_compat_r; auto. apply IZR_lt. lia. }
  destruct (C74_nearest L xs NN FL X) as (out & Eo & Lo & P). exists out.
  assert (QE : quantize64 tb fb ty xs = Ok out) by (unfold quantize64; rewrite E; cbn [bind]; exact Eo). split; [exact QE|]. split; [exact Lo|].
  intros n Hn x y. destruct (P n Hn) as (i & Hi & Oi & D). rewrite LL in Hi. destruct (C74_saturates L xs n FL X Hn INC NN) as [SH SL].
  split; [|split; [|split]].
  - exists (lo + Z.of_nat i)%Z. split; [unfold N in Hi; lia|]. unfold y. rewrite Oi. apply LV; auto.
  - intros R. set (k := ZnearestE (x / lsb)).
    assert (K : (lo <= k <= hi)%Z).
    { unfold k. rewrite <- (Zrnd_IZR ZnearestE lo), <- (Zrnd_IZR ZnearestE hi). split; apply Zrnd_le; try typeclasses eauto;
      apply Rmult_le_reg_r with lsb; auto; unfold Rdiv; rewrite Rmult_assoc, Rinv_l by lra; lra. }
    specialize (D (Z.to_nat (k - lo)) ltac:(unfold N in LL; lia)). unfold distance in D. rewrite <- Oi in D. fold x y in D.
    eapply Rle_trans; [exact D|]. apply Rmult_le_compat_l; [pose proof (two_pos (-52)); lra|].
    rewrite (proj1 (LV (Z.to_nat (k - lo)) ltac:(unfold N in *; lia))). replace (lo + Z.of_nat (Z.to_nat (k - lo)))%Z with k by lia.
    pose proof (Znearest_half (fun t => negb (Z.even t)) (x / lsb)) as HK. fold k in HK.
    replace (x - IZR k * lsb) with ((x / lsb - IZR k) * lsb) by (field; lra). rewrite Rabs_mult, (Rabs_right lsb) by lra.
    apply Rle_trans with (/ 2 * lsb); [apply Rmult_le_compat_r; lra|lra].
  - intros A. destruct SL as (o & Eo' & Oo); [rewrite (proj1 (LV 0%nat ltac:(unfold N; lia))); replace (lo + Z.of_nat 0)%Z with lo by lia; exact A|].
    rewrite Eo in Eo'. injection Eo' as <-. unfold y. rewrite Oo, (proj1 (LV 0%nat ltac:(unfold N; lia))). repeat f_equal; lia.
  - intros [A B].
    assert (VL : val (level L (length L - 1)) = IZR hi * lsb) by (rewrite (proj1 (LV (length L - 1)%nat ltac:(unfold N in *; lia))); do 2 f_equal; unfold N in *; lia).
    destruct SH as (o & Eo' & Oo).
    + rewrite VL. exact A.
    + intros j Hj. rewrite VL, (proj1 (LV j ltac:(lia))). fold x. apply Rlt_le_trans with (two 52 * lsb); [lra|]. apply Rmult_le_compat_l; [apply Rlt_le, two_pos|].
      rewrite <- Rmult_minus_distr_r, <- minus_IZR. rewrite <- (Rmult_1_l lsb) at 1. apply Rmult_le_compat_r; [lra|]. apply IZR_le. unfold N in *. lia.
    + rewrite Eo in Eo'. injection Eo' as <-. unfold y. now rewrite Oo.
Qed.
Print Assumptions C74_quantize.
Example C74_quantize_case : quantize64 3 1 "s" [of_int 13 (-3); of_int 9 0; of_int (-1) (-2); of_int (-9) 0] = Ok [of_int 3 (-1); of_int 3 (-1); of_int (-1) (-1); of_int (-2) 0].
Proof. apply computed. vm_compute. reflexivity. Qed.
(** (Finding.)  An overflowed sample (+infinity) is quantised to the most NEGATIVE value of the format. *)
Theorem C74_quantize_infinity_refuted : forall (tb : nat) (fb : Z) (ty : string), (1 <= tb <= 53)%nat -> (fb <= 63)%Z -> ty = "u"%string \/ ty = "s"%string \/ ty = "ss"%string ->
  exists y, quantize64 tb fb ty [B754_infinity false] = Ok [y] /\ val y = IZR (q_low tb (negb (ty =? "u")%string) (ty =? "ss")%string) * / two (Z.max 0 fb).
Proof.
  intros tb fb ty Htb Hfb HT. assert (S1 : ty_signed ty = negb (ty =? "u")%string) by (destruct HT as [-> | [-> | ->]]; reflexivity).
  destruct (quant_ints_eq tb ty ltac:(lia) HT) as [E LH]. rewrite S1 in E, LH.
  set (lo := q_low tb (negb (ty =? "u")%string) (ty =? "ss")%string) in *. set (hi := q_high tb (negb (ty =? "u")%string)) in *.
  assert (Bnd : (- 2 ^ 53 <= lo /\ hi <= 2 ^ 53)%Z).
  { assert (P1 : (0 < 2 ^ Z.of_nat tb <= 2 ^ 53)%Z) by (split; [apply Z.pow_pos_nonneg; lia|apply Z.pow_le_mono_r; lia]).
    assert (P2 : (0 < 2 ^ (Z.of_nat tb - 1) <= 2 ^ 53)%Z) by (split; [apply Z.pow_pos_nonneg; lia|apply Z.pow_le_mono_r; lia]).
    unfold lo, hi, q_low, q_high. destruct (negb (ty =? "u")%string), (ty =? "ss")%string; lia. }
  assert (V : forall k, (lo <= k <= hi)%Z -> val (quant_level64 fb k) = IZR k * / two (Z.max 0 fb) /\ fine (quant_level64 fb k)) by (intros k Hk; apply quant_level_val; lia).
  exists (quant_level64 fb lo). split; [|apply V; lia]. unfold quantize64. rewrite E. cbn [bind].
  destruct (Z.to_nat (hi - lo + 1)) as [|N] eqn:EN; [lia|].
  rewrite C74_nonfinite; [cbn [seq map hd]; rewrite Z.add_0_r; reflexivity|discriminate| |reflexivity].
  apply Forall_forall. intros l Hl. rewrite map_map in Hl. apply in_map_iff in Hl as (i & <- & Hi). apply in_seq in Hi. apply V. lia.
Qed.
Print Assumptions C74_quantize_infinity_refuted.

(** The demapper: a sample within half the level distance of a level, up to a relative 2^-50, gives the symbol of that level. *)
Theorem C74_demap : forall (c : constellation) (pn : bool) (sig : nda f64) (syms : list nat), length (data sig) = size (shape sig) ->
  Forall2 (fun (x : f64) (k : nat) => (k < length (get_levels c))%nat /\ is_finite x = true /\
    Rabs ((if pn then - val x else val x) - IZR (nth k (get_levels c) 0%Z)) <= (1 - two (-50)) * (match c with NRZ | PAM4 => 2 | OOK | PAM3 => 1 end / 2)) (data sig) syms ->
  fst (demapping64 c pn sig) = Ok (mk_nda (shape sig) (map Z.of_nat syms)).
Proof.
  intros c pn sig syms Hs H. unfold demapping64. apply demapping_with_ok; auto. clear Hs. induction H as [|x k l m (Hk & F & D) _ IH]; constructor; auto. split; auto.
  set (h := match c with NRZ | PAM4 => 2 | OOK | PAM3 => 1 end / 2) in D.
  assert (G : forall z : f64, is_finite z = true -> Rabs (val z - IZR (nth k (get_levels c) 0%Z)) <= (1 - two (-50)) * h -> demap_index64 (get_levels c) z = Z.of_nat k).
  2: { destruct pn; apply G; auto; [now rewrite is_finite_Bopp|]. unfold val in *. rewrite B2R_Bopp. exact D. }
  clear D F x. intros z Fz D. unfold h in D. clear h.
  unfold demap_index64. assert (Hk' : (Z.of_nat k < Z.of_nat (length (get_levels c)))%Z) by lia.
  assert (LK : exists s, (0 <= s <= 1)%Z /\ (nth 1 (get_levels c) 0 - nth 0 (get_levels c) 0 = 2 ^ s)%Z /\ (match c with NRZ | PAM4 => 2 | OOK | PAM3 => 1 end) = two s /\
     IZR (nth k (get_levels c) 0%Z) = IZR (fold_right Z.min (hd 0 (get_levels c)) (get_levels c))%Z + IZR (Z.of_nat k) * two s /\ (length (get_levels c) <= 4)%nat /\
     (Z.abs (fold_right Z.min (hd 0 (get_levels c)) (get_levels c)) <= 3)%Z).
  { assert (T0 : two 0 = 1) by reflexivity. assert (T1 : two 1 = 2) by reflexivity.
    destruct c; [exists 1%Z|exists 0%Z|exists 0%Z|exists 1%Z]; rewrite ?T0, ?T1; (split; [lia|]); (split; [reflexivity|]); (split; [reflexivity|]); cbn [get_levels length] in *;
      (split; [|split; [cbn; lia|cbn; lia]]); (assert (k = 0 \/ k = 1 \/ k = 2 \/ k = 3)%nat as [->|[->|[->| ->]]] by lia); try lia; cbn -[IZR Rplus Rmult]; lra. }
  destruct LK as (s & Hs & St & Sc & Lk & Ll & Mn). rewrite St. rewrite Sc, Lk in D. apply demap_core; auto. lia.
Qed.
Print Assumptions C74_demap.
(** (Finding.)  Just below the threshold the decision goes the wrong way: -2^-60 is nearer to -1 (symbol 1) than to 1, but its distance
    from -3 rounds to 3 and the tie at 1.5 goes to the even symbol 2.  The slicer decides the other way round. *)
Theorem C74_demap_exact_refuted : let x := of_int (-1) (-60) in distance x (of_int (-1) 0) < distance x (of_int 1 0) /\
  fst (demapping64 PAM4 false (vec [x])) = Ok (vec [2]%Z) /\ slicer64 pam4 [x] = Ok [of_int (-1) 0].
Proof.
  intros x. split; [|split; [|apply computed; vm_compute; reflexivity]].
  - unfold distance, x. ovals. assert (0 < bpow radix2 (-60) <= 1) by (split; [apply bpow_gt_0|]; change 1 with (bpow radix2 0); apply bpow_le; lia). rewrite Rabs_right, Rabs_left1 by lra. lra.
  - unfold demapping64. rewrite (demapping_with_ok _ _ _ false (vec [x]) [2%nat]); [reflexivity|reflexivity|]. constructor; [|constructor]. split; [cbn; lia|].
    unfold demap_index64. cbn [get_levels hd nth fold_right Z.min Z.compare Pos.compare Pos.compare_cont].
    assert (E : div64 (sub64 x (of_int (-3) 0)) (of_int 2 0) = of_int 3 (-1)) by (apply B2SF_inj; vm_compute; reflexivity).
    change (-1 - -3)%Z with 2%Z. change (Z.min (-3) (Z.min (-1) (-3)))%Z with (-3)%Z. rewrite E. ovals. change (bpow radix2 (-1)) with (/ 2). change (Z.of_nat 2) with 2%Z.
    unfold Znearest. replace (3 * / 2) with (IZR 1 + / 2) by lra.
    assert (FL : Zfloor (IZR 1 + / 2) = 1%Z) by (apply Zfloor_imp; change (1 + 1)%Z with 2%Z; split; lra). rewrite FL.
    replace (IZR 1 + / 2 - IZR 1) with (/ 2) by lra. rewrite Rcompare_Eq by auto. cbn [Z.even negb].
    rewrite (Zceil_imp 2); [reflexivity|]. cbn. split; lra.
Qed.
Print Assumptions C74_demap_exact_refuted.
Example C74_demap_case : fst (demapping64 PAM4 true (vec [of_int 5 (-1); of_int (-1) (-4); of_int (-31) (-3)])) = Ok (vec [0; 2; 3]%Z).
Proof.
  apply (C74_demap PAM4 true (vec [of_int 5 (-1); of_int (-1) (-4); of_int (-31) (-3)]) [0; 2; 3]%nat); [reflexivity|].
  assert (T : 0 < two (-50) <= / 1024) by (split; [apply bpow_gt_0|]; change (/ 1024) with (bpow radix2 (-10)); apply bpow_le; lia).
  cbn [data vec]. repeat (apply Forall2_cons); try apply Forall2_nil; (split; [cbn; lia|]); (split; [reflexivity|]); cbn [get_levels nth]; ovals;
    change (bpow radix2 (-1)) with (/ 2); change (bpow radix2 (-4)) with (/ 16); change (bpow radix2 (-3)) with (/ 8); apply Rabs_le; lra.
Qed.
