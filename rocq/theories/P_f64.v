(** Lemmas for C74: double precision subtraction, argmin, rounding of quotients. *)
From Coq Require Import ZArith Reals Lra Lia Psatz.
From Flocq Require Import Core BinarySingleNaN Relative Plus_error.
From Verif Require Import Py B_list M_aux M_symbol M_slicer M_f64 S_f64.
Import List.
Open Scope R_scope.

Notation rnd := (round radix2 (FLT_exp (-1074) 53) ZnearestE).
Notation fmt := (generic_format radix2 (FLT_exp (-1074) 53)).
Notation big := (two 1022).

Lemma fmt_val (x : f64) : fmt (val x).
Proof. apply (generic_format_B2R 53 1024). Qed.
Lemma fmt_pow e : (-1074 <= e)%Z -> fmt (bpow radix2 e).
Proof. intros H. apply generic_format_FLT_bpow; auto. reflexivity. Qed.
Lemma big_twice : bpow radix2 1023 = 2 * big.
Proof. unfold two. change 1023%Z with (1 + 1022)%Z. rewrite bpow_plus. reflexivity. Qed.
Lemma sub_val x y : fine x -> fine y -> val (sub64 x y) = rnd (val x - val y) /\ is_finite (sub64 x y) = true.
Proof.
  intros [Fx Bx] [Fy By]. pose proof (Bminus_correct 53 1024 _ _ mode_NE x y Fx Fy) as H.
  assert (L : Rabs (rnd (val x - val y)) <= bpow radix2 1023).
  { apply abs_round_le_generic; try typeclasses eauto. apply fmt_pow; lia. rewrite big_twice. unfold Rminus. eapply Rle_trans; [apply Rabs_triang|]. rewrite Rabs_Ropp. lra. }
  rewrite Rlt_bool_true in H.
  - destruct H as (H1 & H2 & _). split; [exact H1|exact H2].
  - eapply Rle_lt_trans; [exact L|]. apply bpow_lt. reflexivity.
Qed.
Definition dist64 (x l : f64) : f64 := abs64 (sub64 x l).
Lemma dist_val x l : fine x -> fine l -> val (dist64 x l) = rnd (Rabs (val x - val l)) /\ is_finite (dist64 x l) = true.
Proof.
  intros X L. destruct (sub_val x l X L) as [V F]. split; [|unfold dist64, abs64; rewrite is_finite_Babs; exact F].
  unfold dist64, abs64, val. rewrite B2R_Babs. fold (val (sub64 x l)). rewrite V. symmetry. apply round_NE_abs. typeclasses eauto.
Qed.
Lemma rnd_le a b : a <= b -> rnd a <= rnd b.
Proof. intros H. apply round_le; auto; typeclasses eauto. Qed.
Lemma rnd_lt a b : rnd a < rnd b -> a < b.
Proof. intros H. destruct (Rlt_le_dec a b) as [|K]; auto. apply rnd_le in K. lra. Qed.
(** Relative error of a difference of doubles, with u = 2^-53. *)
Definition u53 : R := bpow radix2 (-53).
Lemma u53_pos : 0 < u53.
Proof. apply bpow_gt_0. Qed.
Lemma u_ro_53 : u_ro radix2 53 = u53.
Proof. unfold u_ro, u53. rewrite bpow_plus. change (bpow radix2 1) with 2. change (- (53))%Z with (-53)%Z. field. Qed.
Lemma dist_rel (x l : f64) : let d := Rabs (val x - val l) in d / (1 + u53) <= rnd d /\ rnd d <= d * (1 + 2 * u53) / (1 + u53).
Proof.
  intros d. assert (FL : fmt (- val l)) by (apply generic_format_opp, fmt_val).
  destruct (FLT_plus_error_N_ex radix2 (-1074) 53 (fun x => negb (Z.even x)) (val x) (- val l) (fmt_val x) FL) as (eps & E & H). rewrite u_ro_53 in E. pose proof u53_pos as U.
  assert (A : Rabs (rnd (val x - val l)) = d * (1 + eps)).
  { unfold Rminus. rewrite H. rewrite Rabs_mult. unfold d. f_equal. apply Rabs_right. apply Rabs_le_inv in E. assert (u53 / (1 + u53) <= 1) by (apply Rmult_le_reg_r with (1 + u53); [lra|]; replace (u53 / (1 + u53) * (1 + u53)) with u53 by (field; lra); lra). lra. }
  replace (rnd d) with (d * (1 + eps)) by (rewrite <- A; unfold d; symmetry; apply round_NE_abs; typeclasses eauto).
  apply Rabs_le_inv in E. assert (D : 0 <= d) by apply Rabs_pos.
  replace (d / (1 + u53)) with (d * (1 + - (u53 / (1 + u53)))) by (field; lra). replace (d * (1 + 2 * u53) / (1 + u53)) with (d * (1 + u53 / (1 + u53))) by (field; lra).
  split; apply Rmult_le_compat_l; lra.
Qed.

(** * argmin *)
Lemma less64_spec a b : is_finite a = true -> is_finite b = true -> less64 a b = true <-> val a < val b.
Proof.
  intros Fa Fb. unfold less64. assert (N : forall z : f64, is_finite z = true -> is_nan z = false) by (intros [| | |]; cbn; congruence). rewrite !N by auto. cbn [negb andb orb].
  rewrite Bltb_correct by auto. unfold val. destruct (Rlt_bool_spec (B2R a) (B2R b)); split; intros; auto; try congruence; lra.
Qed.
Lemma argmin64_from_spec l : forall best bi i, is_finite best = true -> Forall (fun d : f64 => is_finite d = true) l -> (bi < i)%nat ->
  let r := argmin64_from best bi i l in
  (r = bi /\ (forall j, (j < length l)%nat -> val best <= val (nth j l best))) \/
  (exists k, (k < length l)%nat /\ r = (i + k)%nat /\ val (nth k l best) < val best /\ (forall j, (j < length l)%nat -> val (nth k l best) <= val (nth j l best)) /\ (forall j, (j < k)%nat -> val (nth k l best) < val (nth j l best))).
Proof.
  induction l as [|x l IH]; intros best bi i Fb Fl Hb; cbn [argmin64_from length].
  - left. split; auto. intros j Hj. lia.
  - inversion Fl as [|? ? Fx Fl']; subst. destruct (less64 x best) eqn:E.
    + apply less64_spec in E; auto. right. destruct (IH x i (S i) Fx Fl' ltac:(lia)) as [[-> H]|(k & Hk & -> & H1 & H2 & H3)].
      * exists 0%nat. cbn [nth]. split; [lia|]. split; [lia|]. split; auto. split; [|intros; lia]. intros [|j] Hj; [lra|]. cbn [nth]. rewrite (nth_indep l best x) by lia. apply H. lia.
      * exists (S k). cbn [nth]. rewrite (nth_indep l best x) by auto. split; [lia|]. split; [lia|]. split; [lra|]. split.
        -- intros [|j] Hj; [lra|]. rewrite (nth_indep l best x) by lia. apply H2. lia.
        -- intros [|j] Hj; [lra|]. rewrite (nth_indep l best x) by lia. apply H3. lia.
    + assert (E' : val best <= val x). { destruct (Rle_lt_dec (val best) (val x)) as [|C]; auto. apply less64_spec in C; auto. congruence. }
      destruct (IH best bi (S i) Fb Fl' ltac:(lia)) as [[-> H]|(k & Hk & -> & H1 & H2 & H3)].
      * left. split; auto. intros [|j] Hj; [auto|]. cbn [nth]. apply H. lia.
      * right. exists (S k). cbn [nth]. split; [lia|]. split; [lia|]. split; auto. split.
        -- intros [|j] Hj; [lra|]. apply H2. lia.
        -- intros [|j] Hj; [lra|]. apply H3. lia.
Qed.
Lemma argmin64_spec l d0 : l <> [] -> Forall (fun d : f64 => is_finite d = true) l ->
  exists i, argmin64 l = Ok i /\ (i < length l)%nat /\ (forall j, (j < length l)%nat -> val (nth i l d0) <= val (nth j l d0)) /\ (forall j, (j < i)%nat -> val (nth i l d0) < val (nth j l d0)).
Proof.
  destruct l as [|d l]; [congruence|]. intros _ F. inversion F as [|? ? Fd Fl]; subst. unfold argmin64. eexists. split; [reflexivity|].
  destruct (argmin64_from_spec l d 0 1 Fd Fl ltac:(lia)) as [[-> H]|(k & Hk & -> & H1 & H2 & H3)].
  - cbn [length nth]. split; [lia|]. split; [|intros; lia]. intros [|j] Hj; [lra|]. rewrite (nth_indep l d0 d) by lia. apply H. lia.
  - cbn [length nth Nat.add]. rewrite (nth_indep l d0 d) by auto. split; [lia|]. split.
    + intros [|j] Hj; [lra|]. rewrite (nth_indep l d0 d) by lia. apply H2. lia.
    + intros [|j] Hj; [lra|]. rewrite (nth_indep l d0 d) by lia. apply H3. lia.
Qed.
(** The slicer's index: no level has a smaller rounded distance, none before it an equal one. *)
Lemma slice_index64_spec levels x : levels <> [] -> fine x -> Forall fine levels ->
  exists i, slice_index64 levels x = Ok i /\ (i < length levels)%nat /\
    (forall j, (j < length levels)%nat -> rnd (Rabs (val x - val (nth i levels x))) <= rnd (Rabs (val x - val (nth j levels x)))) /\
    (forall j, (j < i)%nat -> rnd (Rabs (val x - val (nth i levels x))) < rnd (Rabs (val x - val (nth j levels x)))).
Proof.
  intros N X L. unfold slice_index64. fold dist64. change (map (fun l => abs64 (sub64 x l)) levels) with (map (dist64 x) levels).
  assert (F : Forall (fun d : f64 => is_finite d = true) (map (dist64 x) levels)).
  { apply Forall_forall. intros d Hd. apply in_map_iff in Hd as (l & <- & Hl). rewrite Forall_forall in L. apply dist_val; auto. }
  destruct (argmin64_spec (map (dist64 x) levels) x) as (i & E & Hi & H1 & H2); auto.
  { intros C. apply N. destruct levels; auto. discriminate. }
  rewrite map_length in *. exists i. split; auto. split; auto.
  assert (V : forall j, (j < length levels)%nat -> val (nth j (map (dist64 x) levels) x) = rnd (Rabs (val x - val (nth j levels x)))).
  { intros j Hj. rewrite (map_nth_lt _ _ _ x) by auto. apply dist_val; auto. rewrite Forall_forall in L. apply L, nth_In. auto. }
  split; intros j Hj; rewrite <- !V by lia; auto.
Qed.

(** * Exact conversions *)
Lemma binary_format m e : (Z.abs m <= 2 ^ 53)%Z -> (-1074 <= e)%Z -> fmt (IZR m * bpow radix2 e).
Proof.
  intros Hm He. change (2 ^ 53)%Z with 9007199254740992%Z in Hm. destruct (Z.eq_dec (Z.abs m) 9007199254740992) as [E|N].
  - assert (fmt (bpow radix2 (53 + e))) by (apply fmt_pow; lia). rewrite bpow_plus in H.
    assert (m = 9007199254740992 \/ m = -9007199254740992)%Z as [->| ->] by lia; [|change (-9007199254740992)%Z with (- (9007199254740992))%Z; rewrite opp_IZR, Ropp_mult_distr_l_reverse; apply generic_format_opp]; exact H.
  - apply generic_format_FLT. apply FLT_spec with (Float radix2 m e); cbn [Fnum Fexp]; auto. change (radix2 ^ 53)%Z with 9007199254740992%Z. lia.
Qed.
Lemma of_int_val m e : (Z.abs m <= 2 ^ 53)%Z -> (-1074 <= e <= 900)%Z -> val (of_int m e) = IZR m * bpow radix2 e /\ is_finite (of_int m e) = true.
Proof.
  intros Hm He. pose proof (binary_normalize_correct 53 1024 prec64 emax64 mode_NE m e false) as H. cbv zeta in H.
  assert (F : fmt (F2R (Float radix2 m e))) by (apply (binary_format m e); [exact Hm|lia]).
  change (round radix2 (SpecFloat.fexp 53 1024) (round_mode mode_NE) (F2R (Float radix2 m e))) with (rnd (F2R (Float radix2 m e))) in H.
  rewrite (round_generic radix2 _ ZnearestE _ F) in H. rewrite Rlt_bool_true in H.
  - destruct H as (H1 & H2 & _). split; [exact H1|exact H2].
  - unfold F2R. cbn [Fnum Fexp]. rewrite Rabs_mult. rewrite (Rabs_right (bpow radix2 e)) by (apply Rle_ge, bpow_ge_0). rewrite <- abs_IZR.
    apply Rle_lt_trans with (bpow radix2 53 * bpow radix2 e).
    + apply Rmult_le_compat_r; [apply bpow_ge_0|]. change (bpow radix2 53) with (IZR (2 ^ 53)). now apply IZR_le.
    + rewrite <- bpow_plus. apply bpow_lt. lia.
Qed.
Lemma of_int_fine m e : (Z.abs m <= 2 ^ 53)%Z -> (-1074 <= e <= 900)%Z -> fine (of_int m e).
Proof.
  intros Hm He. destruct (of_int_val m e Hm He) as [V F]. split; auto. rewrite V. rewrite Rabs_mult, (Rabs_right (bpow radix2 e)) by (apply Rle_ge, bpow_ge_0). rewrite <- abs_IZR.
  apply Rle_trans with (bpow radix2 53 * bpow radix2 e).
  - apply Rmult_le_compat_r; [apply bpow_ge_0|]. change (bpow radix2 53) with (IZR (2 ^ 53)). now apply IZR_le.
  - rewrite <- bpow_plus. unfold two. apply bpow_le. lia.
Qed.
Lemma of_int_int m : (Z.abs m <= 2 ^ 53)%Z -> val (of_int m 0) = IZR m /\ fine (of_int m 0).
Proof. intros H. split; [|apply of_int_fine; lia]. rewrite (proj1 (of_int_val m 0 H ltac:(lia))). cbn [bpow]. lra. Qed.
Lemma pow2_IZR k : (0 <= k)%Z -> IZR (2 ^ k) = bpow radix2 k.
Proof. intros H. rewrite <- IZR_Zpower by auto. reflexivity. Qed.
Lemma quant_level_val fb l : (Z.abs l <= 2 ^ 53)%Z -> (fb <= 63)%Z -> val (quant_level64 fb l) = IZR l / bpow radix2 (Z.max 0 fb) /\ fine (quant_level64 fb l).
Proof.
  intros Hl Hf. unfold quant_level64. destruct (of_int_int l Hl) as [V F]. destruct (Z.ltb_spec 0 fb) as [P|N].
  2: { rewrite Z.max_l by lia. change (bpow radix2 0) with 1. split; [lra|auto]. }
  rewrite Z.max_r by lia.
  assert (V2 : val (of_int (2 ^ fb) 0) = bpow radix2 fb).
  { pose proof (binary_normalize_correct 53 1024 prec64 emax64 mode_NE (2 ^ fb) 0 false) as H. cbv zeta in H.
    change (round radix2 (SpecFloat.fexp 53 1024) (round_mode mode_NE) (F2R (Float radix2 (2 ^ fb) 0))) with (rnd (F2R (Float radix2 (2 ^ fb) 0))) in H.
    assert (E : F2R (Float radix2 (2 ^ fb) 0) = bpow radix2 fb) by (unfold F2R; cbn [Fnum Fexp bpow]; rewrite pow2_IZR by lia; lra).
    rewrite E in H. rewrite (round_generic radix2 _ ZnearestE) in H by (apply fmt_pow; lia). rewrite Rlt_bool_true in H; [apply H|].
    rewrite Rabs_right by (apply Rle_ge, bpow_ge_0). apply bpow_lt. lia. }
  assert (NZ : val (of_int (2 ^ fb) 0) <> 0) by (rewrite V2; apply Rgt_not_eq, bpow_gt_0).
  pose proof (Bdiv_correct 53 1024 _ _ mode_NE (of_int l 0) (of_int (2 ^ fb) 0) NZ) as H.
  fold (val (of_int l 0)) (val (of_int (2 ^ fb) 0)) in H. rewrite V2, V in H.
  assert (Q : IZR l / bpow radix2 fb = IZR l * bpow radix2 (- fb)) by (rewrite bpow_opp; reflexivity).
  assert (FQ : fmt (IZR l / bpow radix2 fb)) by (rewrite Q; apply binary_format; lia).
  change (round radix2 (SpecFloat.fexp 53 1024) (round_mode mode_NE) (IZR l / bpow radix2 fb)) with (rnd (IZR l / bpow radix2 fb)) in H.
  rewrite (round_generic radix2 _ ZnearestE _ FQ) in H.
  assert (B : Rabs (IZR l / bpow radix2 fb) <= bpow radix2 53).
  { rewrite Q, Rabs_mult, (Rabs_right (bpow radix2 (- fb))) by (apply Rle_ge, bpow_ge_0). rewrite <- abs_IZR.
    apply Rle_trans with (bpow radix2 53 * bpow radix2 (- fb)).
    - apply Rmult_le_compat_r; [apply bpow_ge_0|]. change (bpow radix2 53) with (IZR (2 ^ 53)). now apply IZR_le.
    - rewrite <- bpow_plus. apply bpow_le. lia. }
  rewrite Rlt_bool_true in H by (eapply Rle_lt_trans; [exact B|]; apply bpow_lt; lia).
  destruct H as (H1 & H2 & _). split; [exact H1|]. split; [unfold div64; rewrite H2; apply F|].
  unfold div64, val. rewrite H1. eapply Rle_trans; [exact B|]. unfold two. apply bpow_le. lia.
Qed.

(** * Rounding a quotient by 1 or 2 to the nearest integer *)
Lemma rnd_between lo hi x : fmt lo -> fmt hi -> lo <= x <= hi -> lo <= rnd x <= hi.
Proof.
  intros L H [A B]. split.
  - rewrite <- (round_generic radix2 (FLT_exp (-1074) 53) ZnearestE lo L). now apply rnd_le.
  - rewrite <- (round_generic radix2 (FLT_exp (-1074) 53) ZnearestE hi H). now apply rnd_le.
Qed.
Lemma div_val x y : is_finite x = true -> val y <> 0 -> Rabs (val x / val y) <= big -> val (div64 x y) = rnd (val x / val y) /\ is_finite (div64 x y) = true.
Proof.
  intros F N B. pose proof (Bdiv_correct 53 1024 _ _ mode_NE x y N) as H.
  fold (val x) (val y) in H. change (round radix2 (SpecFloat.fexp 53 1024) (round_mode mode_NE) (val x / val y)) with (rnd (val x / val y)) in H.
  rewrite Rlt_bool_true in H.
  - destruct H as (H1 & H2 & _). split; [exact H1|]. unfold div64. rewrite H2. exact F.
  - eapply Rle_lt_trans; [apply (abs_round_le_generic radix2 (FLT_exp (-1074) 53) ZnearestE (val x / val y) big); [apply fmt_pow; lia|exact B]|]. apply bpow_lt. lia.
Qed.

(** * The slicer, sample by sample *)
Lemma nearest_of_rnd (x a b : f64) : rnd (distance x a) <= rnd (distance x b) -> distance x a <= (1 + two (-52)) * distance x b.
Proof.
  intros H. destruct (dist_rel x a) as [A _]. destruct (dist_rel x b) as [_ B]. cbv zeta in A, B. fold (distance x a) in A. fold (distance x b) in B. pose proof u53_pos as U.
  assert (E : two (-52) = 2 * u53) by (unfold two, u53; change (-52)%Z with (1 + -53)%Z; rewrite bpow_plus; reflexivity). rewrite E.
  assert (D : distance x a / (1 + u53) <= distance x b * (1 + 2 * u53) / (1 + u53)) by lra.
  apply Rmult_le_compat_r with (r := 1 + u53) in D; [|lra]. replace (distance x a / (1 + u53) * (1 + u53)) with (distance x a) in D by (field; lra).
  replace (distance x b * (1 + 2 * u53) / (1 + u53) * (1 + u53)) with (distance x b * (1 + 2 * u53)) in D by (field; lra). lra.
Qed.
Lemma slicer64_spec levels xs : levels <> [] -> Forall fine levels -> Forall fine xs ->
  exists idx, slicer64 levels xs = Ok (map (level levels) idx) /\ length idx = length xs /\
  forall n, (n < length xs)%nat -> let x := level xs n in let i := nth n idx 0%nat in
    (i < length levels)%nat /\
    (forall j, (j < length levels)%nat -> rnd (distance x (level levels i)) <= rnd (distance x (level levels j))) /\
    (forall j, (j < i)%nat -> rnd (distance x (level levels i)) < rnd (distance x (level levels j))).
Proof.
  intros N L X. set (f := fun x => match slice_index64 levels x with Ok i => i | Raise _ => 0%nat end).
  assert (P : forall x, fine x -> slice_index64 levels x = Ok (f x) /\ (f x < length levels)%nat /\
    (forall j, (j < length levels)%nat -> rnd (distance x (level levels (f x))) <= rnd (distance x (level levels j))) /\
    (forall j, (j < f x)%nat -> rnd (distance x (level levels (f x))) < rnd (distance x (level levels j)))).
  { intros x Fx. destruct (slice_index64_spec levels x N Fx L) as (i & E & Hi & H1 & H2). unfold f. rewrite E. split; auto. split; auto. unfold distance, level.
    split; intros j Hj; [specialize (H1 j Hj)|specialize (H2 j Hj)]; rewrite !(nth_indep levels B754_nan x) by lia; auto. }
  exists (map f xs). rewrite map_length. split; [|split; auto].
  - unfold slicer64. destruct (Nat.eqb_spec (length levels) 0) as [E|_]; [destruct levels; [congruence|discriminate]|].
    rewrite map_map. apply map_res_ok. intros x Hx. rewrite Forall_forall in X. destruct (P x (X x Hx)) as (E & Hi & _). rewrite E. cbn [bind]. f_equal. unfold level. apply nth_indep. auto.
  - intros n Hn x i. assert (E : i = f x) by (unfold i, x, level; now rewrite (map_nth_lt f xs n B754_nan)). rewrite E. rewrite Forall_forall in X. apply P. apply X. now apply nth_In.
Qed.

(** * Demapping *)
Lemma demap_core (x : f64) (mn k : Z) (s : Z) : is_finite x = true -> (Z.abs mn <= 3)%Z -> (0 <= k <= 3)%Z -> (0 <= s <= 1)%Z ->
  Rabs (val x - (IZR mn + IZR k * two s)) <= (1 - two (-50)) * (two s / 2) ->
  ZnearestE (val (div64 (sub64 x (of_int mn 0)) (of_int (2 ^ s) 0))) = k.
Proof.
  intros F Hmn Hk Hs H. assert (T : two s = 1 \/ two s = 2) by (assert (s = 0 \/ s = 1)%Z as [-> | ->] by lia; [left|right]; reflexivity).
  assert (E50 : 0 < two (-50) <= 1) by (split; [apply bpow_gt_0|]; change 1 with (bpow radix2 0); apply bpow_le; lia).
  assert (E51 : two (-50) = 2 * two (-51)) by (unfold two; change (-50)%Z with (1 + -51)%Z; rewrite bpow_plus; reflexivity).
  assert (Bm : -3 <= IZR mn <= 3) by (split; [change (-3) with (IZR (-3))|]; apply IZR_le; lia).
  assert (Bk : 0 <= IZR k <= 3) by (split; apply IZR_le; lia).
  assert (Bx : Rabs (val x) <= 16) by (apply Rabs_le; apply Rabs_le_inv in H; destruct T as [T|T]; rewrite T in *; lra).
  assert (FX : fine x). { split; auto. eapply Rle_trans; [exact Bx|]. change 16 with (bpow radix2 4). apply bpow_le. lia. }
  destruct (of_int_int mn ltac:(lia)) as [Vm Fm]. destruct (sub_val x _ FX Fm) as [V1 F1]. rewrite Vm in V1.
  destruct (of_int_int (2 ^ s)) as [Vs _]; [assert (s = 0 \/ s = 1)%Z as [-> | ->] by lia; cbv; discriminate|]. rewrite pow2_IZR in Vs by lia. fold (two s) in Vs.
  set (lo := IZR k - 1 / 2 + two (-51)). set (hi := IZR k + 1 / 2 - two (-51)).
  assert (P51 : two 51 * two (-51) = 1) by (unfold two; rewrite <- bpow_plus; reflexivity).
  assert (P50 : 2 * two 50 = two 51) by (unfold two; change 51%Z with (1 + 50)%Z; rewrite bpow_plus; reflexivity).
  assert (FL : forall e, (e = 0 \/ e = s)%Z -> fmt (lo * two e) /\ fmt (hi * two e)).
  { intros e He. replace (lo * two e) with (IZR (k * 2 ^ 51 - 2 ^ 50 + 1) * bpow radix2 (-51 + e)). replace (hi * two e) with (IZR (k * 2 ^ 51 + 2 ^ 50 - 1) * bpow radix2 (-51 + e)).
    - split; apply binary_format; lia.
    - unfold hi. rewrite minus_IZR, plus_IZR, mult_IZR, !pow2_IZR by lia. fold (two 51) (two 50). rewrite bpow_plus. fold (two (-51)) (two e).
      replace ((IZR k * two 51 + two 50 - 1) * (two (-51) * two e)) with ((IZR k * (two 51 * two (-51)) + (2 * two 50 * two (-51)) / 2 - two (-51)) * two e) by field. rewrite P50, P51. reflexivity || (f_equal; lra).
    - unfold lo. rewrite plus_IZR, minus_IZR, mult_IZR, !pow2_IZR by lia. fold (two 51) (two 50). rewrite bpow_plus. fold (two (-51)) (two e).
      replace ((IZR k * two 51 - two 50 + 1) * (two (-51) * two e)) with ((IZR k * (two 51 * two (-51)) - (2 * two 50 * two (-51)) / 2 + two (-51)) * two e) by field. rewrite P50, P51. reflexivity || (f_equal; lra). }
  destruct (FL s (or_intror eq_refl)) as [L1 H1]. destruct (FL 0%Z (or_introl eq_refl)) as [L0 H0]. change (two 0) with 1 in L0, H0. rewrite Rmult_1_r in L0, H0.
  assert (D : lo * two s <= rnd (val x - IZR mn) <= hi * two s).
  { apply rnd_between; auto. apply Rabs_le_inv in H. unfold lo, hi. destruct T as [T|T]; rewrite T in *; lra. }
  assert (Q : lo <= rnd (val x - IZR mn) / two s <= hi).
  { destruct T as [T|T]; rewrite T in *; lra. }
  assert (P : 0 < two (-51) <= 1 / 2) by (split; [apply bpow_gt_0|]; lra).
  destruct (div_val (sub64 x (of_int mn 0)) (of_int (2 ^ s) 0)) as [V2 _]; auto.
  - rewrite Vs. apply Rgt_not_eq, bpow_gt_0.
  - rewrite V1, Vs. apply Rle_trans with 16; [|change 16 with (bpow radix2 4); apply bpow_le; lia]. apply Rabs_le. unfold lo, hi in Q. lra.
  - rewrite V2, V1, Vs. apply Znearest_imp. apply rnd_between with (x := rnd (val x - IZR mn) / two s) in Q; auto. apply Rabs_lt. unfold lo, hi in Q. lra.
Qed.
