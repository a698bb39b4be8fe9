(** C29, C30: slicer and quantiser. *)
From Verif Require Import Py B_list PyQ B_qc M_slicer S_rx P_slicer.
From Coq Require Import String.
Import List.
Open Scope Z_scope.

(** C29: on 1-D and non-empty 2-D arrays the shape is kept and every output is the nearest level, the first
    listed of equally near ones.  The default levels are -3, -1, 1, 3. *)
Theorem C29_slicer_nearest : forall (a : nda Qc) (levels : option (list Qc)),
  wf_nda a -> (exists n, shape a = [n]) \/ (exists y x, shape a = [y; x] /\ (0 < y)%nat) -> levels <> Some [] ->
  exists out, slicer (Arr a) levels = Ok out /\ shape out = shape a /\ length (data out) = length (data a) /\
    forall i, (i < length (data a))%nat ->
      nearest_level (match levels with None => map ofZ [-3; -1; 1; 3] | Some l => l end) (nth i (data a) 0%Qc) (nth i (data out) 0%Qc).
Proof.
  intros a levels W Sh N. assert (N' : slicer_levels levels <> []) by (destruct levels; [intros E; apply N; cbn in E; congruence|discriminate]).
  eexists. split; [apply slicer_12; auto|]. cbn [shape data]. split; auto. rewrite map_length. split; auto.
  intros i Hi. rewrite (nth_indep (map _ _) _ (sliced (slicer_levels levels) 0%Qc)) by now rewrite map_length. rewrite map_nth. now apply sliced_nearest.
Qed.
Print Assumptions C29_slicer_nearest.
(** The nearest level (first of ties) is unique, so the theorem above determines the output. *)
Theorem C29_nearest_unique : forall (levels : list Qc) (x v w : Qc), nearest_level levels x v -> nearest_level levels x w -> v = w.
Proof. exact nearest_unique. Qed.
Print Assumptions C29_nearest_unique.
(** Slicing levels returns them unchanged; in particular slicing is idempotent. *)
Theorem C29_slicer_fixes_levels : forall (a : nda Qc) (levels : list Qc),
  wf_nda a -> (exists n, shape a = [n]) \/ (exists y x, shape a = [y; x] /\ (0 < y)%nat) -> levels <> [] ->
  Forall (fun x => In x levels) (data a) -> slicer (Arr a) (Some levels) = Ok a.
Proof.
  intros a levels W Sh N F. rewrite slicer_12 by auto. cbn [slicer_levels]. destruct a as [sh d]. cbn [shape data] in *. f_equal. f_equal.
  rewrite Forall_forall in F. rewrite <- (map_id d) at 2. apply map_ext_in. intros x Hx. now apply sliced_level, F.
Qed.
Print Assumptions C29_slicer_fixes_levels.
Theorem C29_slicer_idempotent : forall (a out : nda Qc) (levels : list Qc),
  wf_nda a -> (exists n, shape a = [n]) \/ (exists y x, shape a = [y; x] /\ (0 < y)%nat) -> levels <> [] ->
  slicer (Arr a) (Some levels) = Ok out -> slicer (Arr out) (Some levels) = Ok out.
Proof.
  intros a out levels W Sh N E. rewrite slicer_12 in E by auto. cbn [slicer_levels] in E. inversion E; subst out. clear E.
  apply C29_slicer_fixes_levels; auto.
  - unfold wf_nda in *. cbn [shape data]. now rewrite map_length.
  - cbn [data]. apply Forall_forall. intros x Hx. apply in_map_iff in Hx. destruct Hx as (v & <- & _). now apply sliced_in.
Qed.
Print Assumptions C29_slicer_idempotent.
(** Monotone, whatever the order of the levels. *)
Theorem C29_slicer_monotone : forall (u v lu lv levels : list Qc),
  levels <> [] -> Forall2 Qcle u v ->
  slicer (Arr (vec u)) (Some levels) = Ok (vec lu) -> slicer (Arr (vec v)) (Some levels) = Ok (vec lv) -> Forall2 Qcle lu lv.
Proof.
  intros u v lu lv levels N F E1 E2. assert (A : forall l, slicer (Arr (vec l)) (Some levels) = Ok (mk_nda [length l] (map (sliced levels) l))).
  { intros l. rewrite slicer_12; auto; [unfold wf_nda; cbn; lia|left; eexists; reflexivity]. }
  rewrite A in E1, E2. inversion E1. inversion E2. clear - N F. induction F; cbn [map]; constructor; auto.
  eapply nearest_monotone; eauto using sliced_nearest.
Qed.
Print Assumptions C29_slicer_monotone.
Example C29_case :
  slicer (Arr (mk_nda [2; 2]%nat [Q2Qc (7 # 2); Q2Qc (-1 # 10); ofZ 0; ofZ (-9)])) None = Ok (mk_nda [2; 2]%nat (map ofZ [3; -1; -1; -3])) /\
  slicer (Arr (vec [ofZ 0; Q2Qc (5 # 2)])) (Some (map ofZ [1; -1; 4])) = Ok (vec (map ofZ [1; 1])).
Proof. split; qcompute. Qed.
(** Finding: an array with three or more dimensions comes back flattened. *)
Theorem C29_slicer_flattens : forall (a : nda Qc) (levels : list Qc) (n1 n2 n3 : nat) (sh : list nat),
  wf_nda a -> shape a = n1 :: n2 :: n3 :: sh -> levels <> [] ->
  exists d, slicer (Arr a) (Some levels) = Ok (mk_nda [size (shape a)] d) /\ length d = length (data a).
Proof.
  intros a levels n1 n2 n3 sh W E N. eexists. rewrite (slicer_eq (Arr a) (Some levels) 0 n1); auto; cbn [contents].
  - cbn [Nat.ltb Nat.leb]. unfold wf_nda in W. rewrite W. split; [reflexivity|]. now rewrite map_length, W.
  - unfold slicer_dims. cbn [contents]. now rewrite E.
  - lia.
Qed.
Print Assumptions C29_slicer_flattens.
(** (Finding.)  Arrays of more than two dimensions come back flat. *)
Theorem C29_shape_preserved_refuted : exists (a out : nda Qc), wf_nda a /\ slicer (Arr a) None = Ok out /\ shape out <> shape a.
Proof. exists (mk_nda [1; 1; 1]%nat [ofZ 1]). eexists. split; [reflexivity|]. split; [vm_compute; reflexivity|]. discriminate. Qed.
Print Assumptions C29_shape_preserved_refuted.
(** Finding: the fallback for objects without a shape attribute raises AttributeError for every input that is
    not 2-D (a plain list of samples for instance), because it reads the missing attribute again. *)
Theorem C29_plain_list_raises : forall (a : nda Qc) (levels : option (list Qc)),
  length (shape a) <> 2%nat -> slicer (Plain a) levels = Raise AttributeError.
Proof.
  intros a levels H. unfold slicer, slicer_dims. cbn [contents]. destruct (shape a) as [|y [|x [|z sh]]]; try reflexivity. now contradiction H.
Qed.
Print Assumptions C29_plain_list_raises.
Theorem C29_no_levels_raises : forall (a : nda Qc), shape a <> [] -> slicer (Arr a) (Some []) = Raise ValueError.
Proof. intros a H. unfold slicer, slicer_dims. cbn [contents]. destruct (shape a) as [|y [|x [|z sh]]]; try reflexivity. now contradiction H. Qed.
Print Assumptions C29_no_levels_raises.

(** C30: exact value of the quantiser for the three documented types: the nearest multiple of 2^-frac_bits
    (ties downwards) saturated to the range of the format.  Negative [frac_bits] act like 0. *)
Theorem C30_quantize_value : forall (a : nda Qc) (tb : nat) (fb : Z) (ty : string),
  wf_nda a -> (exists n, shape a = [n]) \/ (exists y x, shape a = [y; x] /\ (0 < y)%nat) ->
  (1 <= tb)%nat -> ty = "u"%string \/ ty = "s"%string \/ ty = "ss"%string ->
  let signed := negb (ty =? "u")%string in
  let lo := q_low tb signed (ty =? "ss")%string in let hi := q_high tb signed in
  let lsb := (1 / ofZ (2 ^ Z.max 0 fb))%Qc in
  exists out, quantize (Arr a) tb fb ty = Ok (mk_nda (shape a) out) /\ length out = length (data a) /\
    forall i, (i < length (data a))%nat ->
      nth i out 0%Qc = (ofZ (saturate lo hi (round_down_ties (nth i (data a) 0 / lsb))) * lsb)%Qc.
Proof.
  intros a tb fb ty W Sh H1 HT signed lo hi lsb. assert (S1 : ty_signed ty = signed) by (destruct HT as [-> | [-> | ->]]; reflexivity).
  eexists. split; [apply quantize_eq; auto|]. rewrite map_length. split; auto. intros i Hi. rewrite S1. fold lo hi.
  assert (P : ofZ (2 ^ Z.max 0 fb) <> 0%Qc). { change 0%Qc with (ofZ 0). intros E. apply ofZ_inj in E. assert (0 < 2 ^ Z.max 0 fb) by (apply Z.pow_pos_nonneg; lia). lia. }
  rewrite (map_nth_lt _ _ i 0%Qc 0%Qc) by auto. unfold lsb. replace (nth i (data a) 0 / (1 / ofZ (2 ^ Z.max 0 fb)))%Qc with (nth i (data a) 0 * ofZ (2 ^ Z.max 0 fb))%Qc by (field; split; [exact P|discriminate]).
  field. exact P.
Qed.
Print Assumptions C30_quantize_value.
(** Hence: within half an LSB for inputs in range, the range end otherwise; every output is a format value. *)
Theorem C30_quantize_error : forall (a : nda Qc) (tb : nat) (fb : Z) (ty : string),
  wf_nda a -> (exists n, shape a = [n]) \/ (exists y x, shape a = [y; x] /\ (0 < y)%nat) ->
  (1 <= tb)%nat -> 0 <= fb -> ty = "u"%string \/ ty = "s"%string \/ ty = "ss"%string ->
  let signed := negb (ty =? "u")%string in
  let lo := q_low tb signed (ty =? "ss")%string in let hi := q_high tb signed in let m := ofZ (2 ^ fb) in
  exists out, quantize (Arr a) tb fb ty = Ok (mk_nda (shape a) out) /\ length out = length (data a) /\
    forall i, (i < length (data a))%nat -> let x := nth i (data a) 0%Qc in let y := nth i out 0%Qc in
      (exists k, lo <= k <= hi /\ y = (ofZ k / m)%Qc) /\
      ((ofZ lo / m <= x)%Qc -> (x <= ofZ hi / m)%Qc -> (Qcabs (x - y) <= Q2Qc (1 # 2) / m)%Qc) /\
      ((x < ofZ lo / m)%Qc -> y = (ofZ lo / m)%Qc) /\ ((ofZ hi / m < x)%Qc -> y = (ofZ hi / m)%Qc).
Proof.
  intros a tb fb ty W Sh H1 Hf HT signed lo hi m. assert (S1 : ty_signed ty = signed) by (destruct HT as [-> | [-> | ->]]; reflexivity).
  eexists. split; [apply quantize_eq; auto|]. rewrite map_length. split; auto. intros i Hi x y.
  assert (B : lo <= hi) by (unfold lo, hi; rewrite <- S1; now apply quant_bounds).
  assert (Y : y = (ofZ (saturate lo hi (round_down_ties (x * m))) / m)%Qc).
  { unfold y. rewrite (map_nth_lt _ _ i 0%Qc 0%Qc) by auto. cbv beta zeta. rewrite S1, Z.max_r by lia. reflexivity. }
  rewrite Y. split; [exists (saturate lo hi (round_down_ties (x * m)%Qc)); split; [unfold saturate; lia|reflexivity]|].
  apply quant_error; auto. apply Z.pow_pos_nonneg; lia.
Qed.
Print Assumptions C30_quantize_error.
Example C30_case :
  quantize (Arr (vec [Q2Qc (13 # 10); ofZ 9; Q2Qc (-1 # 4); Q2Qc (-3 # 4)])) 3 1 "s"%string =
    Ok (vec [Q2Qc (3 # 2); Q2Qc (3 # 2); Q2Qc (-1 # 2); ofZ (-1)]) /\
  quantize (Arr (vec [ofZ (-9); ofZ 9])) 3 0 "ss"%string = Ok (vec (map ofZ [-3; 3])) /\
  quantize (Arr (vec [ofZ (-9); ofZ 9])) 3 0 "u"%string = Ok (vec (map ofZ [0; 7])).
Proof. split; [qcompute|split; qcompute]. Qed.
(** Finding: the documented -1 fractional bits (levels 0,2,4,6) are ignored. *)
Theorem C30_negative_frac_bits_refuted : exists x : Qc,
  quantize (Arr (vec [x])) 2 (-1) "u"%string = quantize (Arr (vec [x])) 2 0 "u"%string /\
  forall out, quantize (Arr (vec [x])) 2 (-1) "u"%string = Ok out -> ~ Forall (fun v => In v (map ofZ [0; 2; 4; 6])) (data out).
Proof.
  exists (ofZ 5). split; [reflexivity|]. intros out E F.
  assert (Q : Ok out = Ok (vec [ofZ 3])) by (rewrite <- E; qcompute). injection Q as ->.
  inversion F as [|v l H _]. cbn [map In] in H. decompose [or] H; try match goal with H : ofZ _ = ofZ _ |- _ => apply ofZ_inj in H; discriminate end; auto.
Qed.
Print Assumptions C30_negative_frac_bits_refuted.
(** Finding: any other type string raises, and the default argument 'unsigned' is such a string. *)
Theorem C30_other_type_raises : forall (s : array_like) (tb : nat) (fb : Z) (ty : string),
  ty <> "u"%string -> ty <> "s"%string -> ty <> "ss"%string -> quantize s tb fb ty = Raise ValueError.
Proof.
  intros s tb fb ty U S SS. unfold quantize, quant_levels, quant_ints, arange. change (1 =? 0) with false. cbn [bind].
  apply String.eqb_neq in U, S, SS. rewrite U, S, SS. reflexivity.
Qed.
Print Assumptions C30_other_type_raises.
(** (Finding.)  The default quantisation type is not one of the accepted names: quantize without it always raises ValueError. *)
Theorem C30_default_type_refuted : forall (s : array_like) (tb : nat), quantize_default s tb = Raise ValueError.
Proof. intros s tb. apply C30_other_type_raises; discriminate. Qed.
Print Assumptions C30_default_type_refuted.
