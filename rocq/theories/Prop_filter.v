(** C39-C44: recursive filters and the decision feedback equaliser. *)
From Verif Require Import Py B_list PyQ B_qc M_aux M_slicer P_slicer M_filter S_rx S_filter P_filter P_eq.
Open Scope Z_scope.

(** C39: class Filter from any memory; the final memories are the most recent inputs and outputs. *)
Theorem C39_filter_equation : forall (b a zf zi x : list Qc),
  a <> [] -> nth 0 a 0%Qc <> 0%Qc -> length zf = length b -> length zi = (length a - 1)%nat ->
  exists s y s', filter_init b a (Some zf) (Some zi) = Ok s /\ filter_call s Float x = Ok (y, s') /\
    difference_equation b a zf zi [] x y y /\
    f_zfir s' = firstn (length b) (rev x ++ zf) /\ f_ziir s' = firstn (length a - 1) (rev y ++ zi).
Proof.
  intros b a zf zi x Na A0 Lf Li. destruct (filter_run b a x zf zi Na A0 Lf Li) as (y & E & D). exists (mk_filter b a zf zi), y. eexists. split; [|split; [exact E|auto]].
  unfold filter_init. rewrite Lf, Nat.eqb_refl. cbn [bind]. rewrite Li. replace (_ =? _) with true; auto. symmetry. apply Z.eqb_eq. destruct a; [congruence|cbn [length]; lia].
Qed.
Print Assumptions C39_filter_equation.
(** Class FilterTII from any state: the state acts as an additional driving term of the same equation. *)
Theorem C39_filtertii_equation : forall (b a z x : list Qc),
  b <> [] -> a <> [] -> nth 0 a 0%Qc <> 0%Qc -> (2 <= Nat.max (length b) (length a))%nat -> length z = (Nat.max (length b) (length a) - 1)%nat ->
  exists s y s', tii_init b a (Some z) = Ok s /\ tii_call s Float x = Ok (y, s') /\ difference_equation b a [] [] z x y y.
Proof.
  intros b a z x Nb Na A0 H L. destruct (tii_run Ok (fun y => y) b a (fun y => eq_refl) Nb Na A0 x z) as (y & z' & E & _ & D);
    [destruct z; [cbn in L; lia|discriminate]|lia|lia|].
  rewrite map_id in D. exists (tii_of b a z), y, (tii_of b a z'). split; [now apply tii_init_ok|auto].
Qed.
Print Assumptions C39_filtertii_equation.
(** From zero state both classes return the unique solution of the difference equation. *)
Theorem C39_filters_agree : forall (b a x : list Qc),
  b <> [] -> a <> [] -> nth 0 a 0%Qc <> 0%Qc -> (2 <= Nat.max (length b) (length a))%nat ->
  exists s t y s' t', filter_init b a None None = Ok s /\ tii_init b a None = Ok t /\
    filter_call s Float x = Ok (y, s') /\ tii_call t Float x = Ok (y, t') /\
    difference_equation b a [] [] [] x y y /\ (forall y', difference_equation b a [] [] [] x y' y' -> y' = y).
Proof.
  intros b a x Nb Na A0 H. set (m := (Nat.max (length b) (length a) - 1)%nat).
  destruct (C39_filter_equation b a (repeat 0%Qc (length b)) (repeat 0%Qc (length a - 1)) x Na A0 (repeat_length _ _) (repeat_length _ _)) as (s & y & s' & I & E & [L D] & _).
  destruct (C39_filtertii_equation b a (repeat 0%Qc m) x Nb Na A0 H (repeat_length _ _)) as (t & y' & t' & I' & E' & [L' D']).
  assert (Q : difference_equation b a [] [] [] x y y) by (split; auto; intros n Hn; rewrite D, !tap_sum_zero by auto; reflexivity).
  assert (Q' : difference_equation b a [] [] [] x y' y').
  { split; auto. intros n Hn. rewrite D' by auto. f_equal. replace (nth n [] 0%Qc) with 0%Qc by (now destruct n).
    destruct (Nat.lt_ge_cases n m); [now apply repeat_nth|apply nth_overflow; rewrite repeat_length; lia]. }
  assert (y' = y) by (eapply difference_unique; eauto). subst y'.
  exists s, t, y, s', t'. split; [|split; [|split; [exact E|split; [exact E'|split; [exact Q|intros y' Q2; eapply difference_unique; eauto]]]]].
  - rewrite <- I. unfold filter_init. rewrite !repeat_length, Nat.eqb_refl. cbn [bind]. destruct a; [congruence|].
    replace (Z.of_nat (length (q :: a) - 1) =? Z.of_nat (length (q :: a)) - 1) with true; auto. symmetry. apply Z.eqb_eq. cbn [length]. lia.
  - rewrite <- I'. unfold tii_init. rewrite repeat_length. replace (Z.of_nat m =? _) with true by (symmetry; apply Z.eqb_eq; lia). cbn [bind].
    replace (Z.to_nat (Z.max (Z.of_nat (length b)) (Z.of_nat (length a)) - 1)) with m by lia. rewrite !repeat_length. reflexivity.
Qed.
Print Assumptions C39_filters_agree.
(** Finding: a memoryless FilterTII (one coefficient each) cannot process anything. *)
Theorem C39_tii_single_refuted : forall (b0 a0 x : Qc) (xs : list Qc) (dt : dtype),
  exists s, tii_init [b0] [a0] None = Ok s /\ tii_call s dt (x :: xs) = Raise IndexError.
Proof. intros. eexists. split; reflexivity. Qed.
Print Assumptions C39_tii_single_refuted.
Definition q (l : list Z) : list Qc := map ofZ l.
Definition shown {S} (r : res (list Qc * S)) : option (list Q) := match r with Ok (y, _) => Some (map this y) | Raise _ => None end.
Example C39_case :
  shown (s <- filter_init (q [1; 2; -1]) (q [2; 1]) None None ;; filter_call s Float (q [4; 0; 3; -2])) = Some [2; 3; -2; 3]%Q /\
  shown (s <- tii_init (q [1; 2; -1]) (q [2; 1]) None ;; tii_call s Float (q [4; 0; 3; -2])) = Some [2; 3; -2; 3]%Q /\
  nth 0 (q [2; 1]) 0%Qc <> 0%Qc.
Proof. split; [vm_compute; reflexivity|]. split; [vm_compute; reflexivity|]. intros H. apply (f_equal this) in H. vm_compute in H. discriminate. Qed.

(** C40: chunked processing, the three classes (any state, dtype). *)
Theorem C40_filter_chunks : forall (s : filter_state) (dt : dtype) (u v : list Qc),
  filter_call s dt (u ++ v) = (r <- filter_call s dt u ;; w <- filter_call (snd r) dt v ;; Ok (fst r ++ fst w, snd w)).
Proof. intros. apply run_chunk_app. Qed.
Print Assumptions C40_filter_chunks.
Theorem C40_tii_chunks : forall (s : tii_state) (dt : dtype) (u v : list Qc),
  tii_call s dt (u ++ v) = (r <- tii_call s dt u ;; w <- tii_call (snd r) dt v ;; Ok (fst r ++ fst w, snd w)).
Proof. intros. apply run_chunk_app. Qed.
Print Assumptions C40_tii_chunks.
Theorem C40_ffedfe_chunks : forall (levels : option (list Qc)) (s : tii_state) (dt : dtype) (u v : list Qc),
  ffedfe_tii_call levels s dt (u ++ v) = (r <- ffedfe_tii_call levels s dt u ;; w <- ffedfe_tii_call levels (snd r) dt v ;; Ok (fst r ++ fst w, snd w)).
Proof. intros. apply run_chunk_app. Qed.
Print Assumptions C40_ffedfe_chunks.
(** Any cutting into chunks, for the linear filters: the concatenated outputs. *)
Fixpoint call_all {S} (call : S -> list Qc -> res (list Qc * S)) (s : S) (chunks : list (list Qc)) : res (list Qc * S) :=
  match chunks with [] => Ok ([], s) | c :: cs => r <- call s c ;; w <- call_all call (snd r) cs ;; Ok (fst r ++ fst w, snd w) end.
Theorem C40_any_chunking : forall (s : filter_state) (t : tii_state) (levels : option (list Qc)) (dt : dtype) (cs : list (list Qc)),
  call_all (fun s c => filter_call s dt c) s cs = filter_call s dt (concat cs) /\
  call_all (fun s c => tii_call s dt c) t cs = tii_call t dt (concat cs) /\
  call_all (fun s c => ffedfe_tii_call levels s dt c) t cs = ffedfe_tii_call levels t dt (concat cs).
Proof.
  intros s t levels dt cs. revert s t. induction cs as [|c cs IH]; intros s t; [repeat split; reflexivity|]. cbn [call_all concat].
  rewrite C40_filter_chunks, C40_tii_chunks, C40_ffedfe_chunks. repeat split;
  [destruct (filter_call s dt c) as [[y s1]|e]|destruct (tii_call t dt c) as [[y t1]|e]|destruct (ffedfe_tii_call levels t dt c) as [[y t1]|e]]; cbn [bind snd]; auto.
  - now rewrite (proj1 (IH s1 t)).
  - now rewrite (proj1 (proj2 (IH s t1))).
  - now rewrite (proj2 (proj2 (IH s t1))).
Qed.
Print Assumptions C40_any_chunking.
Theorem C40_wrong_memory : forall (b a z : list Qc),
  (length z <> length b -> forall zi, filter_init b a (Some z) zi = Raise ValueError) /\
  (Z.of_nat (length z) <> Z.of_nat (length a) - 1 -> forall zf, filter_init b a zf (Some z) = Raise ValueError) /\
  (Z.of_nat (length z) <> Z.max (Z.of_nat (length b)) (Z.of_nat (length a)) - 1 -> tii_init b a (Some z) = Raise ValueError).
Proof.
  intros b a z. unfold filter_init, tii_init. split; [|split].
  - intros H zi. now rewrite (proj2 (Nat.eqb_neq _ _) H).
  - intros H zf. rewrite (proj2 (Z.eqb_neq _ _) H). destruct zf; auto. destruct (_ =? _)%nat; auto.
  - intros H. now rewrite (proj2 (Z.eqb_neq _ _) H).
Qed.
Print Assumptions C40_wrong_memory.
(** Finding: integer chunks; the internal state is the same as for floats but every output is truncated towards zero. *)
Theorem C40_integer_chunks_refuted :
  (forall (s s' : filter_state) (x y : list Qc), filter_call s Float x = Ok (y, s') -> exists y', filter_call s Int x = Ok (y', s') /\ truncated y y') /\
  (forall (s s' : tii_state) (x y : list Qc), tii_call s Float x = Ok (y, s') -> exists y', tii_call s Int x = Ok (y', s') /\ truncated y y') /\
  (forall (s : filter_state) (x : list Qc) e, filter_call s Float x = Raise e <-> filter_call s Int x = Raise e) /\
  (forall (s : tii_state) (x : list Qc) e, tii_call s Float x = Raise e <-> tii_call s Int x = Raise e) /\
  shown (s <- filter_init (q [1]) (q [2]) None None ;; filter_call s Float (q [3])) = Some ((3 # 2)%Q :: []) /\
  shown (s <- filter_init (q [1]) (q [2]) None None ;; filter_call s Int (q [3])) = Some (1%Q :: []).
Proof.
  assert (T : forall y, truncated y (map (store Int) y)).
  { intros y. exists (map trunc y). split; [rewrite map_map; reflexivity|]. induction y as [|v y IH]; cbn [map]; constructor; auto. apply trunc_toward_zero. }
  split; [|split; [|split; [|split; [|split; vm_compute; reflexivity]]]].
  - intros s s' x y E. unfold filter_call in *. rewrite run_chunk_store, E. cbn [bind fst snd]. eauto.
  - intros s s' x y E. unfold tii_call in *. rewrite run_chunk_store, E. cbn [bind fst snd]. eauto.
  - intros s x e. unfold filter_call. rewrite (run_chunk_store _ Int). destruct (run_chunk _ Float s x); cbn [bind]; split; congruence.
  - intros s x e. unfold tii_call. rewrite (run_chunk_store _ Int). destruct (run_chunk _ Float s x); cbn [bind]; split; congruence.
Qed.
Print Assumptions C40_integer_chunks_refuted.
Example C40_case :
  shown (s <- filter_init (q [1; 2; -1]) (q [2; 1]) None None ;; call_all (fun s c => filter_call s Float c) s [q [4]; []; q [0; 3]; q [-2]]) = Some [2; 3; -2; 3]%Q.
Proof. vm_compute; reflexivity. Qed.

(** C41: FFE and DFE, any memories, oversampling and phase. *)
Theorem C41_ffe_dfe_equation : forall (x ffe dfe : list Qc) (levels : option (list Qc)) (osr phase : Z) (zf zd : option (list Qc)),
  x <> [] -> ffe <> [] -> dfe <> [] -> slicer_levels levels <> [] -> 0 < osr ->
  (forall z, zf = Some z -> length z = length ffe) -> (forall z, zd = Some z -> length z = length dfe) ->
  let mx := match zf with None => [] | Some z => rev z end in
  let md := match zd with None => repeat 0%Qc (length dfe) | Some z => z end in
  exists sin sout zo, equaliser_equation ffe dfe mx md (slicer_levels levels) osr phase x sin sout /\
    ffe_dfe x ffe (Some dfe) levels osr phase zf zd =
      (let zd' := firstn (length dfe) (dfe_contents osr phase md sout (length x)) in
       Ok (if (length ffe =? 1)%nat then OutDfe sin zd' else OutBoth sin zo zd')) /\
    length zo = length ffe /\ forall j, (j < length ffe)%nat -> nth j zo 0%Qc = at_time mx x (Z.of_nat (length x) - Z.of_nat (length ffe) + Z.of_nat j).
Proof.
  intros x ffe dfe levels osr phase zf zd Nx Nf Nd NL Ho H1 H2 mx md. destruct (ffe_dfe_spec x ffe dfe levels osr phase zf zd) as (sin & sout & zo & C & E & L & T); auto.
  exists sin, sout, zo. split; [exact E|]. split; [exact C|]. auto.
Qed.
Print Assumptions C41_ffe_dfe_equation.
(** FFE only: plain convolution; the returned memory is the last samples of this input. *)
Theorem C41_ffe_only : forall (x ffe : list Qc) (levels : option (list Qc)) (osr phase : Z) (zf zd : option (list Qc)),
  x <> [] -> (2 <= length ffe)%nat -> (forall z, zf = Some z -> length z = length ffe) ->
  let mx := match zf with None => [] | Some z => rev z end in
  exists y, ffe_dfe x ffe None levels osr phase zf zd = Ok (OutFfe y (lastn (length ffe) x)) /\ length y = length x /\
    forall n, (n < length x)%nat -> nth n y 0%Qc = tap_sum ffe mx x 0 n.
Proof.
  intros x ffe levels osr phase zf zd Nx Hf Hz mx. eexists. split; [apply ffe_only_spec; auto|]. split; [now rewrite map_length, seq_length|].
  intros n Hn. now rewrite nth_map_seq.
Qed.
Print Assumptions C41_ffe_only.
Theorem C41_single_tap : forall (x : list Qc) (c : Qc) (levels : option (list Qc)) (osr phase : Z) (zf zd : option (list Qc)),
  ffe_dfe x [c] None levels osr phase zf zd = Ok (OutSignal (map (fun v => v * c)%Qc x)).
Proof. reflexivity. Qed.
Print Assumptions C41_single_tap.
(** Finding: an empty input comes back with two output samples when only an FFE is used. *)
Theorem C41_empty_input_refuted : forall (ffe : list Qc) (levels : option (list Qc)) (osr phase : Z) (zd : option (list Qc)), (2 <= length ffe)%nat ->
  exists y, ffe_dfe [] ffe None levels osr phase None zd = Ok (OutFfe y []) /\ length y = 2%nat.
Proof.
  intros ffe levels osr phase zd H. unfold ffe_dfe. destruct (Nat.eqb_spec (length ffe) 1); [lia|]. unfold ffe_memory. destruct (Nat.eqb_spec (length ffe) 0); [lia|]. cbn [bind].
  eexists. split; [f_equal; f_equal; unfold slice_from; now rewrite skipn_nil|]. rewrite app_nil_r. destruct ffe as [|a [|b ffe]]; cbn [length] in H; try lia.
  cbn [length Nat.sub]. cbn [repeat convolve_valid]. rewrite map_length, seq_length. cbn [length]. rewrite repeat_length. lia.
Qed.
Print Assumptions C41_empty_input_refuted.
(** Finding: an empty (but not None) DFE fails on the second sample. *)
Theorem C41_empty_dfe_refuted : forall (x0 x1 c : Qc) (xs : list Qc) (levels : option (list Qc)) (phase : Z), slicer_levels levels <> [] ->
  ffe_dfe (x0 :: x1 :: xs) [c] (Some []) levels 1 phase None None = Raise ValueError.
Proof.
  intros x0 x1 c xs levels phase N. set (x := x0 :: x1 :: xs). assert (X := eq_rows [c] [] x ltac:(cbn; lia) eq_refl ltac:(discriminate)).
  unfold ffe_dfe. cbn [length bind ffe_memory Nat.eqb Nat.sub repeat app] in *. rewrite X. cbn [bind]. change (seq 0 (length x)) with (0 :: 1 :: seq 2 (length xs))%nat. cbn [map ffe_dfe_loop]. cbn [rev app]. do 2 (rewrite np_dot_ok by reflexivity; cbn [bind]).
  destruct (Nat.leb_spec (length x) 0) as [Q|_]; [cbn in Q; lia|]. rewrite slice_one_ok by auto. cbn [bind]. change (1 =? 0) with false. cbv iota.
  rewrite !Z.mod_1_r. change (0 =? 0) with true. cbv iota. change (Z.of_nat 0 - 1 / 2) with (Z.of_nat 0). change (0 <=? Z.of_nat 0) with true. cbv iota.
  rewrite (np_get_nth _ 0 0%Qc) by (cbn; lia). cbn [bind length Nat.ltb Nat.leb app nth]. reflexivity.
Qed.
Print Assumptions C41_empty_dfe_refuted.
Definition shown_out (r : res ffe_dfe_result) : option (list (list Q)) :=
  match r with
  | Ok (OutSignal s) => Some (map this s :: []) | Ok (OutFfe s f) => Some [map this s; map this f]
  | Ok (OutDfe s d) => Some [map this s; map this d] | Ok (OutBoth s f d) => Some [map this s; map this f; map this d]
  | Raise _ => None
  end.
Example C41_case : shown_out (ffe_dfe (q [3; 1; -2; 0; 4; 2]) (q [1; 2]) (Some (q [1; -1])) None 2 0 None None) =
  Some [[3; 7; -3; -7; 10; 16]; [4; 2]; [3; -3]]%Q.
Proof. vm_compute. reflexivity. Qed.

(** C42: streaming with a DFE. *)
Theorem C42_streaming : forall (x1 x2 ffe dfe : list Qc) (levels : option (list Qc)) (osr phase : Z) (zf zd : option (list Qc)),
  x1 <> [] -> x2 <> [] -> (2 <= length ffe)%nat -> dfe <> [] -> slicer_levels levels <> [] -> 0 < osr ->
  (forall z, zf = Some z -> length z = length ffe) -> (forall z, zd = Some z -> length z = length dfe) ->
  Z.of_nat (length x1) mod osr = 0 -> phase mod osr + osr / 2 < osr ->
  exists s1 f1 d1 s2 f2 d2, ffe_dfe x1 ffe (Some dfe) levels osr phase zf zd = Ok (OutBoth s1 f1 d1) /\
    ffe_dfe x2 ffe (Some dfe) levels osr phase (Some f1) (Some d1) = Ok (OutBoth s2 f2 d2) /\
    ffe_dfe (x1 ++ x2) ffe (Some dfe) levels osr phase zf zd = Ok (OutBoth (s1 ++ s2) f2 d2).
Proof.
  intros x1 x2 ffe dfe levels osr phase zf zd N1 N2 Hf Nd NL Ho H1 H2 Hm Hp.
  destruct (stream_spec x1 x2 ffe dfe levels osr phase zf zd) as (s1 & f1 & d1 & s2 & f2 & d2 & A & _ & _ & B & C); auto; [destruct ffe; [cbn in Hf; lia|discriminate]|].
  unfold both_out in *. destruct (Nat.eqb_spec (length ffe) 1); [lia|]. exists s1, f1, d1, s2, f2, d2. split; [exact A|]. split; [apply B; auto|exact C].
Qed.
Print Assumptions C42_streaming.
(** At one sample per symbol the conditions on the cut hold always; a one-tap FFE has no FFE memory. *)
Theorem C42_streaming_osr1 : forall (x1 x2 ffe dfe : list Qc) (levels : option (list Qc)) (phase : Z) (zf zd : option (list Qc)),
  x1 <> [] -> x2 <> [] -> (2 <= length ffe)%nat -> dfe <> [] -> slicer_levels levels <> [] ->
  (forall z, zf = Some z -> length z = length ffe) -> (forall z, zd = Some z -> length z = length dfe) ->
  exists s1 f1 d1 s2 f2 d2, ffe_dfe x1 ffe (Some dfe) levels 1 phase zf zd = Ok (OutBoth s1 f1 d1) /\
    ffe_dfe x2 ffe (Some dfe) levels 1 phase (Some f1) (Some d1) = Ok (OutBoth s2 f2 d2) /\
    ffe_dfe (x1 ++ x2) ffe (Some dfe) levels 1 phase zf zd = Ok (OutBoth (s1 ++ s2) f2 d2).
Proof. intros. apply C42_streaming; auto; try lia; rewrite ?Z.mod_1_r; reflexivity. Qed.
Print Assumptions C42_streaming_osr1.
Theorem C42_streaming_one_tap : forall (x1 x2 dfe : list Qc) (c : Qc) (levels : option (list Qc)) (osr phase : Z) (zd : option (list Qc)),
  x1 <> [] -> x2 <> [] -> dfe <> [] -> slicer_levels levels <> [] -> 0 < osr -> (forall z, zd = Some z -> length z = length dfe) ->
  Z.of_nat (length x1) mod osr = 0 -> phase mod osr + osr / 2 < osr ->
  exists s1 d1 s2 d2, ffe_dfe x1 [c] (Some dfe) levels osr phase None zd = Ok (OutDfe s1 d1) /\
    ffe_dfe x2 [c] (Some dfe) levels osr phase None (Some d1) = Ok (OutDfe s2 d2) /\
    ffe_dfe (x1 ++ x2) [c] (Some dfe) levels osr phase None zd = Ok (OutDfe (s1 ++ s2) d2).
Proof.
  intros x1 x2 dfe c levels osr phase zd N1 N2 Nd NL Ho H2 Hm Hp.
  destruct (stream_spec x1 x2 [c] dfe levels osr phase None zd) as (s1 & f1 & d1 & s2 & f2 & d2 & A & _ & _ & B & C); auto; [discriminate|discriminate|].
  exists s1, d1, s2, d2. split; [exact A|]. split; [apply B; auto|exact C].
Qed.
Print Assumptions C42_streaming_one_tap.
(** FFE only: chunks at least as long as the FFE. *)
Theorem C42_streaming_ffe : forall (x1 x2 ffe : list Qc) (levels : option (list Qc)) (osr phase : Z) (zf zd : option (list Qc)),
  x2 <> [] -> (2 <= length ffe)%nat -> (length ffe <= length x1)%nat -> (forall z, zf = Some z -> length z = length ffe) ->
  exists y1 f1 y2 f2 f, ffe_dfe x1 ffe None levels osr phase zf zd = Ok (OutFfe y1 f1) /\
    ffe_dfe x2 ffe None levels osr phase (Some f1) zd = Ok (OutFfe y2 f2) /\
    ffe_dfe (x1 ++ x2) ffe None levels osr phase zf zd = Ok (OutFfe (y1 ++ y2) f) /\ ((length ffe <= length x2)%nat -> f = f2).
Proof.
  intros x1 x2 ffe levels osr phase zf zd N2 Hf H1 Hz. assert (N1 : x1 <> []) by (destruct x1; [cbn in H1; lia|discriminate]).
  do 5 eexists. split; [apply ffe_only_spec; auto|]. split; [apply ffe_only_spec; auto; intros z [= <-]; now apply lastn_length|].
  split; [rewrite ffe_only_spec; [|destruct x1; [congruence|discriminate]|lia|exact Hz]; f_equal; f_equal|].
  - rewrite app_length, seq_app, map_app. f_equal.
    + apply map_ext_in. intros n Hn. apply in_seq in Hn. apply sumQ_map_ext. intros i _. f_equal. unfold at_time. destruct (Z.ltb_spec (Z.of_nat n - Z.of_nat i) 0); auto.
      now rewrite app_nth1 by lia.
    + cbn [Nat.add past_ffe]. replace (seq (length x1) (length x2)) with (map (fun n => (length x1 + n)%nat) (seq 0 (length x2))).
      2:{ generalize (length x1) (length x2). clear. intros a k. revert a. induction k as [|k IH]; intros a; auto. rewrite !seq_S, map_app, IH. reflexivity. }
      rewrite map_map. apply map_ext_in. intros n Hn. apply in_seq in Hn. apply sumQ_map_ext. intros i Hi. apply in_seq in Hi. f_equal. symmetry.
      rewrite (zo_past zf x1 x2 (lastn (length ffe) x1) (length ffe)); try lia; [f_equal; lia|now apply lastn_length|].
      intros j Hj. unfold lastn. rewrite nth_skipn. unfold at_time. destruct (Z.ltb_spec (Z.of_nat (length x1) - Z.of_nat (length ffe) + Z.of_nat j) 0); [lia|]. f_equal. lia.
  - intros H2. unfold lastn. rewrite app_length, skipn_app. rewrite skipn_all2 by lia. cbn [app]. f_equal. lia.
Qed.
Print Assumptions C42_streaming_ffe.
(** Finding: after a chunk shorter than the FFE the returned memory is rejected by the next call, whatever its data. *)
Theorem C42_short_chunk_refuted : forall (x1 x2 ffe : list Qc) (levels : option (list Qc)) (osr phase : Z) (zf zd : option (list Qc)),
  x1 <> [] -> (length x1 < length ffe)%nat -> (forall z, zf = Some z -> length z = length ffe) ->
  exists y1 f1, ffe_dfe x1 ffe None levels osr phase zf zd = Ok (OutFfe y1 f1) /\
    ffe_dfe x2 ffe None levels osr phase (Some f1) zd = Raise TypeError.
Proof.
  intros x1 x2 ffe levels osr phase zf zd N1 H1 Hz. assert (0 < length x1)%nat by (destruct x1; [congruence|cbn; lia]).
  do 2 eexists. split; [apply ffe_only_spec; auto; lia|]. unfold ffe_dfe. destruct (Nat.eqb_spec (length ffe) 1); [lia|].
  unfold ffe_memory. destruct (Nat.eqb_spec (length (lastn (length ffe) x1)) (length ffe)) as [E|E]; auto. unfold lastn in E. rewrite skipn_length in E. lia.
Qed.
Print Assumptions C42_short_chunk_refuted.
(** Wrongly sized memories raise TypeError (the ValueError with a message that the code intends is never reached). *)
Theorem C42_wrong_memory_refuted : forall (x ffe dfe z : list Qc) (levels : option (list Qc)) (osr phase : Z) (zd : option (list Qc)),
  (length z <> length ffe -> (2 <= length ffe)%nat -> ffe_dfe x ffe None levels osr phase (Some z) zd = Raise TypeError) /\
  (length z <> length dfe -> forall zf, ffe_dfe x ffe (Some dfe) levels osr phase zf (Some z) = Raise TypeError).
Proof.
  intros x ffe dfe z levels osr phase zd. split; intros H.
  - intros Hf. unfold ffe_dfe, ffe_memory. destruct (Nat.eqb_spec (length ffe) 1); [lia|]. now rewrite (proj2 (Nat.eqb_neq _ _) H).
  - intros zf. unfold ffe_dfe. now rewrite (proj2 (Nat.eqb_neq _ _) H).
Qed.
Print Assumptions C42_wrong_memory_refuted.
(** Finding: at osr 2 and phase 1 a decision at the chunk boundary is lost. *)
Theorem C42_lost_decision_refuted : exists x1 x2 s1 d1 s2 d2 s d, Z.of_nat (length x1) mod 2 = 0 /\
  ffe_dfe x1 (q [1]) (Some (q [1])) None 2 1 None None = Ok (OutDfe s1 d1) /\
  ffe_dfe x2 (q [1]) (Some (q [1])) None 2 1 None (Some d1) = Ok (OutDfe s2 d2) /\
  ffe_dfe (x1 ++ x2) (q [1]) (Some (q [1])) None 2 1 None None = Ok (OutDfe s d) /\ s <> s1 ++ s2.
Proof.
  exists (q [1; 3]), (q [1; 3]). do 6 eexists. split; [reflexivity|]. split; [vm_compute; reflexivity|]. split; [vm_compute; reflexivity|]. split; [vm_compute; reflexivity|].
  intros H. apply (f_equal (map this)) in H. vm_compute in H. discriminate.
Qed.
Print Assumptions C42_lost_decision_refuted.
Example C42_case : shown_out (ffe_dfe (q [3; 1; -2; 0]) (q [1; 2]) (Some (q [1; -1])) None 2 0 None None) = Some [[3; 7; -3; -7]; [-2; 0]; [-3; 3]]%Q /\
  shown_out (ffe_dfe (q [4; 2]) (q [1; 2]) (Some (q [1; -1])) None 2 0 (Some (q [-2; 0])) (Some (q [-3; 3]))) = Some [[10; 16]; [4; 2]; [3; -3]]%Q.
Proof. split; vm_compute; reflexivity. Qed.

(** C43 *)
Theorem C43_ffedfe_filters_agree : forall (x ffe dfe : list Qc) (levels : option (list Qc)) (phase : Z),
  x <> [] -> ffe <> [] -> dfe <> [] -> slicer_levels levels <> [] ->
  exists t sin t' r, tii_init ffe (ofZ 1 :: dfe) None = Ok t /\ ffedfe_tii_call levels t Float x = Ok (sin, t') /\
    ffe_dfe x ffe (Some dfe) levels 1 phase None None = Ok r /\ match r with OutDfe s _ => s = sin | OutBoth s _ _ => s = sin | _ => False end.
Proof.
  intros x ffe dfe levels phase Nx Nf Nd NL. set (a := ofZ 1 :: dfe). set (m := (Nat.max (length ffe) (length a) - 1)%nat).
  assert (Nz : (0 < m)%nat) by (unfold m, a; destruct dfe; [congruence|cbn [length]; lia]).
  assert (Na : a <> []) by discriminate. assert (A0 : nth 0 a 0%Qc <> 0%Qc) by (intros H; apply (f_equal this) in H; vm_compute in H; discriminate).
  destruct (tii_run (slice_one levels) (sliced (slicer_levels levels)) ffe a (fun y => slice_one_ok levels y NL) Nf Na A0 x (repeat 0%Qc m)) as (y & z' & E & _ & L & D).
  { destruct m; [lia|discriminate]. } { rewrite repeat_length. lia. } { rewrite repeat_length. lia. }
  destruct (C41_ffe_dfe_equation x ffe dfe levels 1 phase None None Nx Nf Nd NL ltac:(lia) ltac:(discriminate) ltac:(discriminate)) as (sin & sout & zo & Q & R & _).
  assert (Q' : equaliser_equation ffe dfe [] (repeat 0%Qc (length dfe)) (slicer_levels levels) 1 phase x y (map (sliced (slicer_levels levels)) y)).
  { split; auto. split; [now apply decisions_map|]. intros n Hn. specialize (D n Hn). unfold a in D at 1. cbn [nth] in D. change (ofZ 1) with 1%Qc in D. rewrite Qcmult_1_l in D. rewrite D. unfold a.
    rewrite (tap_sum_dfe _ _ _ phase). replace (nth n (repeat 0%Qc m) 0%Qc) with 0%Qc.
    2:{ destruct (Nat.lt_ge_cases n m); [now rewrite repeat_nth|symmetry; apply nth_overflow; rewrite repeat_length; lia]. }
    rewrite Qcplus_0_r. f_equal. f_equal. apply map_ext. intros j. f_equal. rewrite !contents_one. symmetry. apply at_time_zero. }
  destruct (equaliser_unique _ _ _ _ _ _ _ _ _ _ _ _ Q Q') as [-> _].
  exists (tii_of ffe a (repeat 0%Qc m)), y, (tii_of ffe a z'). eexists. split.
  - unfold tii_init. cbn [bind]. rewrite repeat_length. unfold tii_of. rewrite repeat_length. fold a. assert (length ffe <> 0)%nat by (destruct ffe; [congruence|discriminate]).
    assert (length a <> 0)%nat by discriminate. replace (Z.to_nat (Z.max (Z.of_nat (length ffe)) (Z.of_nat (length a)) - 1)) with m by lia. do 2 f_equal; f_equal; f_equal; lia.
  - split; [exact E|]. split; [exact R|]. cbv zeta. destruct (_ =? _)%nat; reflexivity.
Qed.
Print Assumptions C43_ffedfe_filters_agree.
Example C43_case : shown (t <- tii_init (q [1; 2]) (q [1; 1; -1]) None ;; ffedfe_tii_call None t Float (q [3; 1; -2; 0])) = Some [3; 4; 0; 0]%Q /\
  shown_out (ffe_dfe (q [3; 1; -2; 0]) (q [1; 2]) (Some (q [1; -1])) None 1 0 None None) = Some [[3; 4; 0; 0]; [-2; 0]; [-1; -1]]%Q.
Proof. split; vm_compute; reflexivity. Qed.

(** C44: received sample = symbol + post-cursor ISI + disturbance. *)
Theorem C44_matched_dfe : forall (s w h x : list Qc) (levels : option (list Qc)) (phase : Z),
  x <> [] -> h <> [] -> length s = length x -> length w = length x ->
  (forall n, (n < length x)%nat -> nth n x 0%Qc = (tap_sum (ofZ 1 :: h) [] s 0 n + nth n w 0)%Qc) ->
  Forall (fun v => In v (slicer_levels levels)) s ->
  (forall n l l', (n < length x)%nat -> In l (slicer_levels levels) -> In l' (slicer_levels levels) -> l <> l' -> (Qcabs (nth n w 0) + Qcabs (nth n w 0) < Qcabs (l - l'))%Qc) ->
  exists zd, ffe_dfe x [ofZ 1] (Some h) levels 1 phase None None = Ok (OutDfe (map2 Qcplus s w) zd) /\
    decisions (slicer_levels levels) (map2 Qcplus s w) s.
Proof.
  intros s w h x levels phase Nx Nh Ls Lw X In_s Sp. assert (HX : (0 < length x)%nat) by (destruct x; [congruence|cbn; lia]).
  assert (Sn : forall n, (n < length x)%nat -> In (nth n s 0%Qc) (slicer_levels levels)) by (intros n Hn; apply (Forall_nth_lt _ _ _ 0%Qc In_s); lia).
  assert (NL : slicer_levels levels <> []) by (intros Q; specialize (Sn 0%nat HX); rewrite Q in Sn; destruct Sn).
  destruct (C41_ffe_dfe_equation x [ofZ 1] h levels 1 phase None None Nx ltac:(discriminate) Nh NL ltac:(lia) ltac:(discriminate) ltac:(discriminate)) as (sin & sout & zo & (Li & (Lo & De) & E) & R & _).
  assert (K : forall n, (n < length x)%nat -> nth n sin 0%Qc = (nth n s 0 + nth n w 0)%Qc /\ nth n sout 0%Qc = nth n s 0%Qc).
  { induction n as [n IH] using (well_founded_induction lt_wf). intros Hn.
    assert (A : nth n sin 0%Qc = (nth n s 0 + nth n w 0)%Qc).
    { rewrite E by auto. rewrite <- (tap_sum_dfe h _ sout phase n (ofZ 1)). rewrite tap_sum_zero.
      rewrite (tap_sum_ext (ofZ 1 :: h) [] [] sout s 1 n).
      2:{ intros i Hi. unfold at_time. destruct (Z.ltb_spec (Z.of_nat n - Z.of_nat i) 0); auto. apply IH; lia. }
      assert (S1 : forall c l, tap_sum (ofZ 1 :: c) [] l 0 n = (nth n l 0 + tap_sum (ofZ 1 :: c) [] l 1 n)%Qc).
      { intros c l. unfold tap_sum. cbn [length]. rewrite Nat.sub_0_r, Nat.sub_succ, Nat.sub_0_r. cbn [seq map]. rewrite sumQ_cons. f_equal. cbn [nth]. change (ofZ 1) with 1%Qc. rewrite Qcmult_1_l.
        unfold at_time. destruct (Z.ltb_spec (Z.of_nat n - Z.of_nat 0) 0); [lia|]. f_equal. lia. }
      rewrite (S1 [] x). rewrite (X n Hn), (S1 h s). replace (tap_sum [ofZ 1] [] x 1 n) with 0%Qc by reflexivity. ring. }
    split; auto. apply matched_decision with (slicer_levels levels) (nth n w 0%Qc); auto.
    rewrite <- A. apply De. lia. }
  assert (Es : sin = map2 Qcplus s w).
  { apply (nth_ext_def 0%Qc); [rewrite map2_length; lia|]. intros n Hn. rewrite (map2_nth _ _ _ _ 0%Qc 0%Qc) by lia. apply K. lia. }
  assert (Eo : sout = s) by (apply (nth_ext_def 0%Qc); [lia|]; intros n Hn; apply K; lia).
  subst sin sout. eexists. split; [exact R|]. split; [lia|exact De].
Qed.
Print Assumptions C44_matched_dfe.
Example C44_case :
  let s := q [3; -1; -3; 1] in let w := map Q2Qc [1 # 2; -9 # 10; 0; 3 # 4]%Q in let h := map Q2Qc [-1 # 2; 2]%Q in
  let x := map Q2Qc [7 # 2; -34 # 10; 35 # 10; 125 # 100]%Q in
  (forall n, (n < length x)%nat -> nth n x 0%Qc = (tap_sum (ofZ 1 :: h) [] s 0 n + nth n w 0)%Qc) /\
  shown_out (ffe_dfe x (q [1]) (Some h) None 1 0 None None) = Some [[7 # 2; -19 # 10; -3; 7 # 4]; [1; -3]]%Q.
Proof.
  cbv zeta. split; [|vm_compute; reflexivity]. intros n Hn. cbn [map length] in Hn.
  destruct n as [|[|[|[|n]]]]; [| | | |lia]; apply Qc_decomp; vm_compute; reflexivity.
Qed.
