(** Proofs about the slicer and the quantiser (C29, C30). *)
From Verif Require Import Py B_list PyQ B_qc M_slicer S_rx.
From Coq Require Import String Qround Lqa.
Import List.
Open Scope Z_scope.
Ltac Zify.zify_post_hook ::= Z.div_mod_to_equations.

Lemma ge_shape_size (sh : list nat) : (size sh = 0)%nat -> exists i, nth_error sh i = Some 0%nat.
Proof.
  induction sh as [|a sh IH]; cbn [size fold_right]; intros H; [discriminate|].
  destruct a; [exists 0%nat; reflexivity|]. destruct IH as [i Hi]; [unfold size in *; nia|]. exists (S i). auto.
Qed.

(** [slice_index] picks the first nearest level. *)
Lemma slice_index_ok levels x : levels <> [] -> exists k, slice_index levels x = Ok k /\ (k < length levels)%nat /\
  (forall j, (j < length levels)%nat -> (Qcabs (x - nth k levels 0) <= Qcabs (x - nth j levels 0))%Qc) /\
  (forall j, (j < k)%nat -> (Qcabs (x - nth k levels 0) < Qcabs (x - nth j levels 0))%Qc).
Proof.
  intros N. destruct (argminQ_spec (map (fun l => Qcabs (x - l)%Qc) levels)) as (k & E & L & M & F).
  { destruct levels; [congruence|discriminate]. }
  rewrite map_length in L, M. exists k. split; [exact E|]. split; [exact L|].
  assert (A : forall j, (j < length levels)%nat -> nth j (map (fun l => Qcabs (x - l)%Qc) levels) 0%Qc = Qcabs (x - nth j levels 0)%Qc).
  { intros j Hj. rewrite (nth_indep _ _ (Qcabs (x - 0)%Qc)) by (rewrite map_length; lia). apply (map_nth (fun l => Qcabs (x - l)%Qc)). }
  split; intros j Hj; [specialize (M j Hj)|specialize (F j Hj)]; rewrite !A in * by lia; auto.
Qed.
(** Functional version of the slicer for one sample. *)
Definition sliced (levels : list Qc) (x : Qc) : Qc :=
  match slice_index levels x with Ok k => nth k levels 0%Qc | Raise _ => 0%Qc end.
Lemma sliced_nearest levels x : levels <> [] -> nearest_level levels x (sliced levels x).
Proof.
  intros N. destruct (slice_index_ok levels x N) as (k & E & L & M & F). unfold sliced. rewrite E.
  exists k. split; auto. split; auto. split; auto. intros l Hl. destruct (In_nth _ _ 0%Qc Hl) as (j & Hj & <-). auto.
Qed.
Lemma nearest_unique levels x v w : nearest_level levels x v -> nearest_level levels x w -> v = w.
Proof.
  intros (a & La & <- & A1 & A2) (b & Lb & <- & B1 & B2). f_equal.
  apply (first_min_unique (fun k => Qcabs (x - nth k levels 0)%Qc) (length levels)); auto; intros j Hj; [apply A1|apply B1]; now apply nth_In.
Qed.
Lemma nearest_in levels x v : nearest_level levels x v -> In v levels.
Proof. intros (k & L & <- & _). now apply nth_In. Qed.
Lemma sliced_in levels x : levels <> [] -> In (sliced levels x) levels.
Proof. intros N. eapply nearest_in, sliced_nearest, N. Qed.
Lemma sliced_level levels x : In x levels -> sliced levels x = x.
Proof.
  intros I. assert (N : levels <> []) by (destruct levels; [destruct I|discriminate]).
  destruct (sliced_nearest levels x N) as (k & _ & _ & M & _). specialize (M x I).
  revert M. generalize (sliced levels x). intros v M. replace (x - x)%Qc with 0%Qc in M by ring. rewrite (Qcabs_pos 0 (Qcle_refl 0)) in M.
  assert (P := Qcabs_nonneg (x - v)). assert (Z0 : Qcabs (x - v)%Qc = 0%Qc) by qlra. apply Qcabs_null in Z0. qlra.
Qed.
(** Monotone without any assumption on the order of the levels. *)
Lemma nearest_monotone levels x x' v v' : (x <= x')%Qc -> nearest_level levels x v -> nearest_level levels x' v' -> (v <= v')%Qc.
Proof.
  intros L H H'. destruct (Qclt_le_dec v' v) as [C|C]; auto. exfalso.
  destruct (Qc_eq_dec x x') as [->|Ne]; [rewrite (nearest_unique _ _ _ _ H H') in C; qlra|].
  assert (L' : (x < x')%Qc) by (destruct (Qcle_lt_or_eq _ _ L); congruence).
  assert (I := nearest_in _ _ _ H). assert (I' := nearest_in _ _ _ H').
  destruct H as (k & _ & _ & M & _). destruct H' as (k' & _ & _ & M' & _). specialize (M v' I'). specialize (M' v I). qabs.
Qed.

Definition slicer_levels (levels : option (list Qc)) : list Qc :=
  match levels with None => map ofZ [-3; -1; 1; 3] | Some l => l end.
Lemma slicer_eq s levels y x : wf_nda (contents s) -> slicer_dims s = Ok (y, x) -> (0 < y -> shape (contents s) = [y; x])%nat -> slicer_levels levels <> [] ->
  slicer s levels = Ok (mk_nda (if (0 <? y)%nat then [y; x] else [length (data (contents s))]) (map (sliced (slicer_levels levels)) (data (contents s)))).
Proof.
  intros W D Sh N. unfold slicer. rewrite D. cbn [bind]. fold (slicer_levels levels). set (lv := slicer_levels levels) in *. clearbody lv.
  destruct (Nat.eqb_spec (length lv) 0) as [Q|Q]; [destruct lv; [congruence|discriminate]|].
  set (g := fun v => match slice_index lv v with Ok k => k | Raise _ => 0%nat end).
  assert (G : forall v, slice_index lv v = Ok (g v) /\ (g v < length lv)%nat).
  { intros v. destruct (slice_index_ok lv v N) as (k & E & L & _). unfold g. rewrite E. auto. }
  rewrite (map_res_ok _ g) by (intros v _; apply G). cbn [bind].
  assert (T : forall sh, np_take lv (map Z.of_nat (data (mk_nda sh (map g (data (contents s)))))) = Ok (map (sliced lv) (data (contents s)))).
  { intros sh. cbn [data]. unfold np_take. rewrite (map_res_ok _ (fun i => nth (Z.to_nat i) lv 0%Qc)).
    - rewrite !map_map. f_equal. apply map_ext. intros v. rewrite Nat2Z.id. unfold sliced. destruct (G v) as [-> _]. reflexivity.
    - intros i Hi. rewrite map_map in Hi. apply in_map_iff in Hi. destruct Hi as (v & <- & _). apply np_get_Z. destruct (G v). lia. }
  destruct (Nat.ltb_spec 0 y) as [P|P].
  - unfold reshape. rewrite map_length. unfold wf_nda in W. rewrite W, (Sh P), Nat.eqb_refl. cbn [bind]. rewrite T. reflexivity.
  - cbn [bind]. unfold vec. rewrite T. cbn [bind shape]. now rewrite map_length.
Qed.
Lemma slicer_12 a levels : wf_nda a -> slicer_levels levels <> [] ->
  (exists n, shape a = [n]) \/ (exists y x, shape a = [y; x] /\ (0 < y)%nat) ->
  slicer (Arr a) levels = Ok (mk_nda (shape a) (map (sliced (slicer_levels levels)) (data a))).
Proof.
  intros W N [(n & E)|(y & x & E & P)].
  - rewrite (slicer_eq (Arr a) levels 0 n); auto; cbn [contents].
    + cbn [Nat.ltb Nat.leb]. unfold wf_nda in W. rewrite W, E. cbn [size fold_right]. now rewrite Nat.mul_1_r.
    + unfold slicer_dims. cbn [contents]. now rewrite E.
    + lia.
  - rewrite (slicer_eq (Arr a) levels y x); auto; cbn [contents].
    + rewrite E. destruct (Nat.ltb_spec 0 y); [auto|lia].
    + unfold slicer_dims. cbn [contents]. now rewrite E.
Qed.

(** Quantiser: consecutive multiples of 1/m. *)
Lemma quant_nearest lo hi m x : lo <= hi -> 0 < m ->
  let K := saturate lo hi (round_down_ties (x * ofZ m)%Qc) in
  nearest_level (map (fun k => (ofZ k / ofZ m)%Qc) (map (fun i => lo + Z.of_nat i) (seq 0 (Z.to_nat (hi - lo + 1))))) x (ofZ K / ofZ m)%Qc.
Proof.
  intros LH Hm K. assert (HK : lo <= K <= hi) by (unfold K, saturate; lia).
  assert (Mp : (0 < ofZ m)%Qc) by (change 0%Qc with (ofZ 0); now apply ofZ_lt). assert (Mn : ofZ m <> 0%Qc) by (intros E; rewrite E in Mp; qlra).
  assert (A : forall j, (Qcabs (x - ofZ j / ofZ m) = Qcabs (x * ofZ m - ofZ j) / ofZ m)%Qc).
  { intros j. assert (E : (x * ofZ m - ofZ j = (x - ofZ j / ofZ m) * ofZ m)%Qc) by (field; exact Mn).
    rewrite E, Qcabs_Qcmult, (Qcabs_pos (ofZ m)) by (apply Qclt_le_weak; exact Mp). field. exact Mn. }
  set (X := (x * ofZ m)%Qc) in *. clearbody X.
  assert (C1 := Qle_ceiling (this X - (1 # 2))). assert (C2 := Qceiling_lt (this X - (1 # 2))). fold (round_down_ties X) in C1, C2.
  set (c := round_down_ties X) in *. clearbody c.
  assert (B : forall j, lo <= j <= hi -> (Qcabs (X - ofZ K) <= Qcabs (X - ofZ j))%Qc /\ (j < K -> (Qcabs (X - ofZ K) < Qcabs (X - ofZ j))%Qc)).
  { assert (D : (ofZ c - ofZ 1 < X - Q2Qc (1 # 2) /\ X - Q2Qc (1 # 2) <= ofZ c)%Qc).
    { split; qc_norm; unfold Qminus, Z.sub in *; rewrite ?inject_Z_plus, ?inject_Z_opp in *; unfold inject_Z in *; lra. }
    clear C1 C2. destruct D as [D1 D2]. rewrite <- ofZ_sub in D1. clear A Mp Mn Hm.
    assert (E : forall a b, a <= b -> (ofZ a <= ofZ b)%Qc) by (intros; now apply ofZ_le).
    rewrite ofZ_sub in D1. intros j Hj. unfold K, saturate in *. clear K.
    destruct (Z.lt_trichotomy j (Z.max lo (Z.min hi c))) as [H|[H|H]].
    - (* j below K: then K <= c *)
      assert (E1 := E j (Z.max lo (Z.min hi c) - 1) ltac:(lia)). assert (E2 := E (Z.max lo (Z.min hi c)) c ltac:(lia)). rewrite ofZ_sub in E1.
      split; intros; qabs.
    - rewrite <- H. split; [apply Qcle_refl|lia].
    - assert (E1 := E (Z.max lo (Z.min hi c) + 1) j ltac:(lia)). assert (E2 := E c (Z.max lo (Z.min hi c)) ltac:(lia)). rewrite ofZ_add in E1.
      split; intros; [qabs|lia]. }
  assert (P : forall a b, (a <= b)%Qc -> (a / ofZ m <= b / ofZ m)%Qc).
  { intros a b H. apply Qcmult_lt_0_le_reg_r with (ofZ m); auto. replace (a / ofZ m * ofZ m)%Qc with a by (field; auto). replace (b / ofZ m * ofZ m)%Qc with b by (field; auto). auto. }
  assert (P' : forall a b, (a < b)%Qc -> (a / ofZ m < b / ofZ m)%Qc).
  { intros a b H. apply Qcnot_le_lt. intros Q. apply (Qcmult_le_compat_r _ _ (ofZ m)) in Q; [|apply Qclt_le_weak; auto].
    replace (a / ofZ m * ofZ m)%Qc with a in Q by (field; auto). replace (b / ofZ m * ofZ m)%Qc with b in Q by (field; auto). qlra. }
  assert (NT : forall j, (j < Z.to_nat (hi - lo + 1))%nat -> nth j (map (fun k => (ofZ k / ofZ m)%Qc) (map (fun i => lo + Z.of_nat i) (seq 0 (Z.to_nat (hi - lo + 1))))) 0%Qc = (ofZ (lo + Z.of_nat j) / ofZ m)%Qc).
  { intros j Hj. rewrite map_map, (nth_map_seq (fun i => (ofZ (lo + Z.of_nat i) / ofZ m)%Qc)) by auto. reflexivity. }
  exists (Z.to_nat (K - lo)). rewrite !map_length, seq_length. split; [lia|]. split; [rewrite NT by lia; repeat f_equal; lia|]. split.
  - intros l Hl. rewrite map_map in Hl. apply in_map_iff in Hl. destruct Hl as (i & <- & Hi). apply in_seq in Hi. rewrite !A. apply P, B. lia.
  - intros j Hj. rewrite NT by lia. rewrite !A. apply P', B; lia.
Qed.

Definition ty_signed (ty : string) : bool := (ty =? "s")%string || (ty =? "ss")%string.
Lemma arange_pow n : arange 0 n 1 = Ok (map (fun i => 0 + Z.of_nat i) (seq 0 (Z.to_nat n))).
Proof.
  unfold arange. change (1 =? 0) with false. cbv iota. rewrite Z.div_1_r. replace (- (0 - n)) with n by lia. f_equal. apply map_ext. intros. lia.
Qed.
Lemma quant_ints_eq tb ty : (1 <= tb)%nat -> ty = "u"%string \/ ty = "s"%string \/ ty = "ss"%string ->
  let lo := q_low tb (ty_signed ty) (ty =? "ss")%string in let hi := q_high tb (ty_signed ty) in
  quant_ints tb ty = Ok (map (fun i => lo + Z.of_nat i) (seq 0 (Z.to_nat (hi - lo + 1)))) /\ lo <= hi.
Proof.
  intros H1 HT lo hi. assert (P : 2 ^ Z.of_nat tb = 2 * 2 ^ (Z.of_nat tb - 1)) by (rewrite <- Z.pow_succ_r by lia; f_equal; lia).
  assert (P0 : 0 < 2 ^ (Z.of_nat tb - 1)) by (apply Z.pow_pos_nonneg; lia).
  unfold quant_ints. rewrite arange_pow. cbn [bind].
  unfold lo, hi, q_low, q_high in *. clear lo hi. set (h := 2 ^ (Z.of_nat tb - 1)) in *. clearbody h. rewrite P.
  destruct HT as [-> | [-> | ->]]; unfold ty_signed; cbn [String.eqb Ascii.eqb Bool.eqb negb orb]; cbn [bind].
  - split; [|lia]. do 3 f_equal; lia.
  - destruct (Nat.eqb_spec tb 0); [lia|]. split; [|lia]. f_equal. rewrite map_map.
    replace (Z.to_nat (h - 1 - - h + 1)) with (Z.to_nat (2 * h)) by lia. apply map_ext. intros. lia.
  - split; [|lia]. f_equal.
    replace (Z.to_nat (h - 1 - (1 - h) + 1)) with (Z.to_nat (2 * h) - 1)%nat by lia.
    assert (T : exists k, Z.to_nat (2 * h) = S k) by (exists (Z.to_nat (2 * h) - 1)%nat; lia). destruct T as [k T]. rewrite T. cbn [seq map tl].
    replace (S k - 1)%nat with k by lia. rewrite <- seq_shift, !map_map. apply map_ext. intros. lia.
Qed.
Lemma quant_levels_eq tb fb ty : (1 <= tb)%nat -> ty = "u"%string \/ ty = "s"%string \/ ty = "ss"%string -> (ty = "ss"%string -> 1 < tb)%nat \/ True ->
  let lo := q_low tb (ty_signed ty) (ty =? "ss")%string in let hi := q_high tb (ty_signed ty) in
  quant_levels tb fb ty = Ok (map (fun k => (ofZ k / ofZ (2 ^ Z.max 0 fb))%Qc) (map (fun i => lo + Z.of_nat i) (seq 0 (Z.to_nat (hi - lo + 1))))) /\ lo <= hi.
Proof.
  intros H1 HT _ lo hi. destruct (quant_ints_eq tb ty H1 HT) as [E B]. fold lo hi in E, B. split; auto.
  unfold quant_levels. rewrite E. cbn [bind]. f_equal.
  destruct (Z.ltb_spec 0 fb); [now rewrite Z.max_r by lia|]. rewrite Z.max_l by lia. apply map_ext. intros k. change (ofZ (2 ^ 0)) with 1%Qc. field. discriminate.
Qed.
Lemma quantize_eq a tb fb ty : wf_nda a -> (exists n, shape a = [n]) \/ (exists y x, shape a = [y; x] /\ (0 < y)%nat) ->
  (1 <= tb)%nat -> ty = "u"%string \/ ty = "s"%string \/ ty = "ss"%string ->
  let lo := q_low tb (ty_signed ty) (ty =? "ss")%string in let hi := q_high tb (ty_signed ty) in
  quantize (Arr a) tb fb ty =
  Ok (mk_nda (shape a) (map (fun x => (ofZ (saturate lo hi (round_down_ties (x * ofZ (2 ^ Z.max 0 fb))%Qc)) / ofZ (2 ^ Z.max 0 fb))%Qc) (data a))).
Proof.
  intros W Sh H1 HT lo hi. destruct (quant_levels_eq tb fb ty H1 HT (or_intror I)) as [E LH]. fold lo hi in E, LH.
  unfold quantize. rewrite E. cbn [bind].
  set (lv := map (fun k => (ofZ k / ofZ (2 ^ Z.max 0 fb))%Qc) (map (fun i => lo + Z.of_nat i) (seq 0 (Z.to_nat (hi - lo + 1))))).
  assert (N : lv <> []).
  { unfold lv. intros Q. apply (f_equal (@length Qc)) in Q. rewrite !map_length, seq_length in Q. cbn [length] in Q. lia. }
  rewrite slicer_12 by auto. cbn [slicer_levels]. f_equal. f_equal. apply map_ext. intros x.
  apply (nearest_unique lv x); [now apply sliced_nearest|]. apply quant_nearest; auto. apply Z.pow_pos_nonneg; lia.
Qed.
Lemma quant_bounds tb ty : (1 <= tb)%nat -> q_low tb (ty_signed ty) (ty =? "ss")%string <= q_high tb (ty_signed ty).
Proof.
  intros H. assert (P : 2 ^ Z.of_nat tb = 2 * 2 ^ (Z.of_nat tb - 1)) by (rewrite <- Z.pow_succ_r by lia; f_equal; lia).
  assert (P0 : 0 < 2 ^ (Z.of_nat tb - 1)) by (apply Z.pow_pos_nonneg; lia). unfold q_low, q_high.
  destruct (ty_signed ty), (ty =? "ss")%string; lia.
Qed.
(** Half an LSB inside the range, the nearest end outside. *)
Lemma quant_error lo hi m x : lo <= hi -> 0 < m ->
  let v := (ofZ (saturate lo hi (round_down_ties (x * ofZ m)%Qc)) / ofZ m)%Qc in
  ((ofZ lo / ofZ m <= x)%Qc -> (x <= ofZ hi / ofZ m)%Qc -> (Qcabs (x - v) <= Q2Qc (1 # 2) / ofZ m)%Qc) /\
  ((x < ofZ lo / ofZ m)%Qc -> v = (ofZ lo / ofZ m)%Qc) /\ ((ofZ hi / ofZ m < x)%Qc -> v = (ofZ hi / ofZ m)%Qc).
Proof.
  intros LH Hm v. assert (Mp : (0 < ofZ m)%Qc) by (change 0%Qc with (ofZ 0); now apply ofZ_lt). assert (Mn : ofZ m <> 0%Qc) by (intros E; rewrite E in Mp; qlra).
  assert (P : forall a b, (a <= b)%Qc -> (a * ofZ m <= b * ofZ m)%Qc) by (intros a b H; apply Qcmult_le_compat_r; auto using Qclt_le_weak).
  assert (P1 : forall a b, (a < b)%Qc -> (a * ofZ m < b * ofZ m)%Qc) by (intros a b H; apply Qcmult_lt_compat_r; auto).
  assert (I : forall a, (a / ofZ m * ofZ m = a)%Qc) by (intros; field; auto).
  set (X := (x * ofZ m)%Qc) in *. set (c := round_down_ties X) in *.
  assert (D : (ofZ c - ofZ 1 < X - Q2Qc (1 # 2) /\ X - Q2Qc (1 # 2) <= ofZ c)%Qc).
  { assert (C1 := Qle_ceiling (this X - (1 # 2))). assert (C2 := Qceiling_lt (this X - (1 # 2))). fold (round_down_ties X) in C1, C2. fold c in C1, C2. clearbody c X.
    split; qc_norm; unfold Qminus, Z.sub in *; rewrite ?inject_Z_plus, ?inject_Z_opp in *; unfold inject_Z in *; lra. }
  destruct D as [D1 D2].
  assert (LT : forall a b, (ofZ a - ofZ 1 < ofZ b)%Qc -> a <= b).
  { intros a b H. rewrite <- ofZ_sub in H. apply (proj1 (ofZ_lt _ _)) in H. lia. }
  split; [|split].
  - intros A B. apply P in A. apply P in B. rewrite I in A, B. fold X in A, B.
    assert (c <= hi). { apply LT. qlra. } assert (lo <= c \/ lo = c + 1).
    { destruct (Z.le_gt_cases lo c); auto. right. assert (lo <= c + 1); [|lia]. apply LT. rewrite ofZ_add. qlra. }
    apply Qcmult_lt_0_le_reg_r with (ofZ m); auto. rewrite I.
    assert (E : (Qcabs (x - v) * ofZ m = Qcabs (X - ofZ (saturate lo hi c)))%Qc).
    { rewrite <- (Qcabs_pos (ofZ m)) at 1 by (apply Qclt_le_weak; exact Mp). rewrite <- Qcabs_Qcmult. f_equal. unfold v, X. field. auto. }
    rewrite E. clear E. unfold saturate. destruct H0 as [H0|H0].
    + rewrite Z.max_r, Z.min_r by lia. clear - D1 D2. qabs.
    + rewrite Z.max_l by lia. subst lo. rewrite ofZ_add in *. clear - A D1 D2. qabs.
  - intros A. apply P1 in A. rewrite I in A. fold X in A. assert (c <= lo) by (apply LT; qlra). unfold v, saturate. f_equal. f_equal. lia.
  - intros A. apply P1 in A. rewrite I in A. fold X in A. assert (hi <= c). { apply LT. qlra. } unfold v, saturate. f_equal. f_equal. lia.
Qed.
