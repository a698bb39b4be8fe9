(** Proofs about ffe_dfe and FfeDfeFilterTII (C41-C44). *)
From Verif Require Import Py B_list PyQ B_qc M_aux S_aux P_buffer M_slicer P_slicer M_filter S_rx S_filter P_filter.
Open Scope Z_scope.
Ltac Zify.zify_post_hook ::= Z.div_mod_to_equations.

Lemma slice_one_ok levels x : slicer_levels levels <> [] -> slice_one levels x = Ok (sliced (slicer_levels levels) x).
Proof.
  intros N. unfold slice_one. rewrite slicer_12; [|reflexivity|exact N|left; exists 1%nat; reflexivity]. cbn [bind data vec map]. reflexivity.
Qed.

(** Memories in time order. *)
Lemma at_time_rev z x k : - Z.of_nat (length z) <= k -> at_time (rev z) x k = nth (Z.to_nat (k + Z.of_nat (length z))) (z ++ x) 0%Qc.
Proof.
  intros H. unfold at_time. destruct (Z.ltb_spec k 0).
  - rewrite rev_nth by lia. rewrite app_nth1 by lia. f_equal. lia.
  - rewrite app_nth2 by lia. f_equal. lia.
Qed.
Lemma at_time_tl z x k n : length z = S n -> - Z.of_nat n <= k -> at_time (rev z) x k = at_time (rev (tl z)) x k.
Proof.
  intros L H. destruct z as [|z0 z]; [discriminate|]. cbn [length tl] in *. rewrite !at_time_rev by (cbn [length]; lia).
  cbn [length]. replace (Z.to_nat (k + Z.of_nat (S (length z)))) with (S (Z.to_nat (k + Z.of_nat (length z)))) by lia. reflexivity.
Qed.
(** The memory a call really uses. *)
Definition past_ffe (zi : option (list Qc)) : list Qc := match zi with None => [] | Some z => rev z end.
Lemma ffe_memory_ok F zi : (0 < F)%nat -> (forall z, zi = Some z -> length z = F) ->
  exists z, ffe_memory F zi = Ok z /\ length z = (F - 1)%nat /\ forall k x, - Z.of_nat (F - 1) <= k -> at_time (rev z) x k = at_time (past_ffe zi) x k.
Proof.
  intros HF H. unfold ffe_memory. destruct zi as [z|].
  - rewrite (H z eq_refl), Nat.eqb_refl. exists (tl z). split; auto. assert (L := H z eq_refl). split; [destruct z; cbn in *; lia|].
    intros k x Hk. cbn [past_ffe]. symmetry. apply (at_time_tl z x k (F - 1)); lia.
  - destruct (Nat.eqb_spec F 0); [lia|]. exists (repeat (ofZ 0) (F - 1)). split; auto. split; [apply repeat_length|].
    intros k x _. rewrite rev_repeat. apply at_time_zero.
Qed.

(** FFE only: convolution. *)
Lemma convolve_ffe ffe z x : (0 < length ffe)%nat -> length z = (length ffe - 1)%nat -> x <> [] ->
  convolve_valid ffe (z ++ x) = map (fun n => tap_sum ffe (rev z) x 0 n) (seq 0 (length x)).
Proof.
  intros HF L Nx. assert (0 < length x)%nat by (destruct x; [congruence|cbn; lia]). unfold convolve_valid. destruct ffe as [|f0 ffe]; [cbn in HF; lia|].
  destruct (z ++ x) as [|v0 v] eqn:E; [destruct z; [destruct x; [congruence|discriminate]|discriminate]|]. rewrite <- E. clear E.
  rewrite app_length. replace (Nat.max _ _ - Nat.min _ _ + 1)%nat with (length x) by lia. apply map_ext_in. intros n Hn. apply in_seq in Hn.
  unfold conv_at, tap_sum. rewrite Nat.sub_0_r. apply sumQ_map_ext. intros i Hi. apply in_seq in Hi. destruct (Nat.leb_spec i (Nat.min (length (f0 :: ffe)) (length z + length x) - 1 + n)); [|lia].
  change (ofZ 0) with 0%Qc. f_equal. rewrite at_time_rev by lia. f_equal. lia.
Qed.

(** The rows of the buffer. *)
Lemma eq_rows (ffe z x : list Qc) : (0 < length ffe)%nat -> length z = (length ffe - 1)%nat -> x <> [] ->
  buffer (ofZ 0) Qceqb (z ++ x) (Z.of_nat (length ffe)) (Z.of_nat (length ffe) - 1) 0 false =
  Ok (map (fun n => map (fun j => nth (n + j) (z ++ x) 0%Qc) (seq 0 (length ffe))) (seq 0 (length x))).
Proof.
  intros HF L Nx. change 0 with (Z.of_nat 0) at 2. rewrite buffer_noclip; [|destruct z; [exact Nx|discriminate]|exact HF|lia].
  f_equal. rewrite app_length. unfold ceil_div. assert (0 < length x)%nat by (destruct x; [congruence|cbn; lia]).
  replace (Z.to_nat ((Z.of_nat 0 + Z.of_nat (length z + length x) - Z.max (Z.of_nat (length ffe) - 1) 0 + (Z.of_nat (length ffe) - (Z.of_nat (length ffe) - 1)) - 1) / (Z.of_nat (length ffe) - (Z.of_nat (length ffe) - 1)))) with (length x).
  - apply map_ext. intros n. replace (Z.to_nat (Z.of_nat (length ffe) - (Z.of_nat (length ffe) - 1))) with 1%nat by lia. rewrite Nat.mul_1_r. unfold frame.
    apply map_ext. intros j. unfold delayed. rewrite Nat.sub_0_r. reflexivity.
  - replace (Z.of_nat (length ffe) - (Z.of_nat (length ffe) - 1)) with 1 by lia. rewrite Z.div_1_r. lia.
Qed.
Lemma sumQ_rev (f : nat -> Qc) n : sumQ (map f (seq 0 n)) = sumQ (map (fun i => f (n - 1 - i)%nat) (seq 0 n)).
Proof.
  induction n as [|n IH]; auto. transitivity (sumQ (map f (seq 0 n ++ [(0 + n)%nat]))); [now rewrite <- seq_S|]. rewrite map_app, sumQ_app, IH.
  change (seq 0 (S n)) with (0%nat :: seq 1 n). cbn [map]. rewrite !sumQ_cons, sumQ_shift. change (sumQ []) with 0%Qc.
  replace (S n - 1 - 0)%nat with (0 + n)%nat by lia.
  replace (sumQ (map (fun i => f (n - 1 - i)%nat) (seq 0 n))) with (sumQ (map (fun i => f (S n - 1 - S i)%nat) (seq 0 n))); [ring|].
  apply sumQ_map_ext. intros i _. f_equal. lia.
Qed.
Lemma row_dot (ffe z x : list Qc) n : length z = (length ffe - 1)%nat -> (0 < length ffe)%nat -> (n < length x)%nat ->
  np_dot (map (fun j => nth (n + j) (z ++ x) 0%Qc) (seq 0 (length ffe))) (rev ffe) = Ok (tap_sum ffe (rev z) x 0 n).
Proof.
  intros L HF Hn. rewrite np_dot_ok by (rewrite map_length, seq_length, rev_length; auto). f_equal. rewrite dotQ_sum by (rewrite map_length, seq_length, rev_length; auto).
  rewrite map_length, seq_length. unfold tap_sum. rewrite Nat.sub_0_r. rewrite sumQ_rev. apply sumQ_map_ext. intros i Hi. apply in_seq in Hi.
  rewrite nth_map_seq by lia. rewrite rev_nth by lia. rewrite at_time_rev by lia. rewrite Qcmult_comm. f_equal; f_equal; lia.
Qed.

(** Sampling instants. *)
Lemma instants_S osr phase n : 0 < osr -> sampling_instants osr phase (S n) =
  (if (Z.of_nat n mod osr =? (phase + osr / 2) mod osr) && (0 <=? Z.of_nat n - osr / 2) then [(n - Z.to_nat (osr / 2))%nat] else []) ++ sampling_instants osr phase n.
Proof.
  intros Ho. unfold sampling_instants. set (h := Z.to_nat (osr / 2)). assert (Hh : osr / 2 = Z.of_nat h) by (unfold h; lia). rewrite Hh.
  destruct (Z.leb_spec 0 (Z.of_nat n - Z.of_nat h)) as [H|H].
  - replace (S n - h)%nat with (S (n - h)) by lia. rewrite seq_S, filter_app, rev_app_distr. cbn [Nat.add filter]. rewrite andb_true_r. f_equal.
    replace (Z.of_nat (n - h) mod osr =? phase mod osr) with (Z.of_nat n mod osr =? (phase + Z.of_nat h) mod osr).
    + destruct (_ =? _); reflexivity.
    + rewrite Nat2Z.inj_sub by lia. clear -Ho. generalize (Z.of_nat n) (Z.of_nat h). intros a b.
      destruct (Z.eqb_spec (a mod osr) ((phase + b) mod osr)) as [E|E], (Z.eqb_spec ((a - b) mod osr) (phase mod osr)) as [F|F]; auto; exfalso.
      * apply F. rewrite Zminus_mod, E, <- Zminus_mod. f_equal. lia.
      * apply E. replace a with (a - b + b) by lia. rewrite Zplus_mod, F, <- Zplus_mod. reflexivity.
  - rewrite andb_false_r. replace (S n - h)%nat with 0%nat by lia. replace (n - h)%nat with 0%nat by lia. reflexivity.
Qed.
Lemma instants_lt osr phase n s : In s (sampling_instants osr phase n) -> (s < n)%nat.
Proof. unfold sampling_instants. rewrite <- in_rev, filter_In, in_seq. lia. Qed.
Lemma contents_ext osr phase md s1 s2 n : (forall i, (i < n)%nat -> nth i s1 0%Qc = nth i s2 0%Qc) -> dfe_contents osr phase md s1 n = dfe_contents osr phase md s2 n.
Proof. intros H. unfold dfe_contents. f_equal. apply map_ext_in. intros i Hi. apply H. eapply instants_lt; eauto. Qed.

(** The loop. *)
Lemma mem_update L v mem : length mem = L -> (0 < L)%nat -> (if (1 <? L)%nat then v :: slice_to mem (-1) else v :: []) = firstn L (v :: mem) :> list Qc.
Proof.
  intros E H. destruct (Nat.ltb_spec 1 L) as [Q|Q].
  - destruct L as [|L]; [lia|]. cbn [firstn]. f_equal. change (-1) with (- Z.of_nat 1). rewrite slice_to_neg by lia. f_equal. lia.
  - replace L with 1%nat by lia. reflexivity.
Qed.
Lemma firstn_cons_firstn L (v : Qc) l : firstn L (v :: firstn L l) = firstn L (v :: l).
Proof. destruct L; auto. rewrite !firstn_cons, firstn_firstn. f_equal. f_equal. lia. Qed.
Section Loop.
  Variables (ffe dfe : list Qc) (levels : option (list Qc)) (osr phase : Z) (z x md : list Qc).
  Hypothesis (HF : (0 < length ffe)%nat) (HD : (0 < length dfe)%nat) (Lz : length z = (length ffe - 1)%nat) (Ho : 0 < osr) (NL : slicer_levels levels <> []) (Lm : length md = length dfe).
  Let lv := slicer_levels levels.
  Let eqn (n : nat) sin sout := nth n sin 0%Qc = (tap_sum ffe (rev z) x 0 n - sumQ (map (fun j => nth j dfe 0 * nth j (dfe_contents osr phase md sout n) 0) (seq 0 (length dfe))))%Qc.
  Lemma loop_spec : forall k n sin sout, (n + k = length x)%nat -> length sin = n -> sout = map (sliced lv) sin -> (forall i, (i < n)%nat -> eqn i sin sout) ->
    exists sin', ffe_dfe_loop ffe dfe levels osr phase (length x) (map (fun n => map (fun j => nth (n + j) (z ++ x) 0%Qc) (seq 0 (length ffe))) (seq n k)) n sin sout
        (firstn (length dfe) (dfe_contents osr phase md sout n)) =
      Ok (sin', firstn (length dfe) (dfe_contents osr phase md (map (sliced lv) sin') (length x))) /\ length sin' = length x /\
      (forall i, (i < length x)%nat -> eqn i sin' (map (sliced lv) sin')).
  Proof.
    induction k as [|k IH]; intros n sin sout Hn Ls -> E.
    - exists sin. cbn [seq map ffe_dfe_loop]. replace (length x) with n by lia. repeat split; auto.
    - cbn [seq map ffe_dfe_loop]. rewrite row_dot by (auto; lia). cbn [bind].
      set (sout := map (sliced lv) sin) in *. assert (Lo : length sout = n) by (unfold sout; now rewrite map_length).
      assert (LC : length (firstn (length dfe) (dfe_contents osr phase md sout n)) = length dfe).
      { rewrite firstn_length. unfold dfe_contents. rewrite app_length. lia. }
      rewrite np_dot_ok by exact LC. cbn [bind]. destruct (Nat.leb_spec (length x) n); [lia|].
      assert (Dt : dotQ (firstn (length dfe) (dfe_contents osr phase md sout n)) dfe = sumQ (map (fun j => nth j dfe 0 * nth j (dfe_contents osr phase md sout n) 0)%Qc (seq 0 (length dfe)))).
      { rewrite dotQ_sum by exact LC. rewrite LC. apply sumQ_map_ext. intros j Hj. apply in_seq in Hj. rewrite nth_firstn by lia. apply Qcmult_comm. }
      rewrite Dt. set (v := (tap_sum ffe (rev z) x 0 n - _)%Qc). rewrite slice_one_ok by auto. fold lv. cbn [bind].
      destruct (Z.eqb_spec osr 0); [lia|].
      assert (So : sout ++ [sliced lv v] = map (sliced lv) (sin ++ [v])) by (unfold sout; now rewrite map_app).
      assert (CE : dfe_contents osr phase md sout n = dfe_contents osr phase md (sout ++ [sliced lv v]) n).
      { apply contents_ext. intros i Hi. now rewrite app_nth1 by lia. }
      assert (Eq' : forall i, (i < S n)%nat -> eqn i (sin ++ [v]) (map (sliced lv) (sin ++ [v]))).
      { intros i Hi. rewrite <- So. unfold eqn. destruct (Nat.eq_dec i n) as [->|Ne].
        - rewrite app_nth2, Ls, Nat.sub_diag by lia. cbn [nth]. rewrite <- CE. reflexivity.
        - rewrite app_nth1 by lia. rewrite (E i) by lia. fold sout. f_equal. apply sumQ_map_ext. intros j _. f_equal. f_equal.
          apply contents_ext. intros q Hq. now rewrite app_nth1 by lia. }
      specialize (IH (S n) (sin ++ [v]) (map (sliced lv) (sin ++ [v])) ltac:(lia) ltac:(rewrite app_length; cbn; lia) eq_refl Eq').
      rewrite <- So in IH. unfold dfe_contents at 1 in IH. rewrite instants_S in IH by auto.
      rewrite CE in LC |- *. clear CE.
      destruct ((Z.of_nat n mod osr =? (phase + osr / 2) mod osr) && (0 <=? Z.of_nat n - osr / 2)) eqn:C.
      + apply andb_true_iff in C. destruct C as [C1 C2]. rewrite C1, C2. apply Z.leb_le in C2. assert (0 <= osr / 2) by lia.
        rewrite (np_get_Z _ _ 0%Qc) by (rewrite !app_length, repeat_length; cbn [length]; lia). cbn [bind].
        rewrite app_nth1 by (rewrite app_length; cbn [length]; lia). rewrite mem_update by auto. rewrite firstn_cons_firstn.
        cbn [app map] in IH. replace (Z.to_nat (Z.of_nat n - osr / 2)) with (n - Z.to_nat (osr / 2))%nat by lia. exact IH.
      + replace (if Z.of_nat n mod osr =? (phase + osr / 2) mod osr then _ else Ok (firstn (length dfe) (dfe_contents osr phase md (sout ++ [sliced lv v]) n)))
          with (Ok (firstn (length dfe) (dfe_contents osr phase md (sout ++ [sliced lv v]) n)) : res (list Qc)).
        2:{ destruct (_ =? _); auto. cbn [andb] in C. now rewrite C. }
        cbn [bind]. cbn [app] in IH. exact IH.
  Qed.
End Loop.

Definition past_dfe (dfe : list Qc) (zi : option (list Qc)) : list Qc := match zi with None => repeat 0%Qc (length dfe) | Some z => z end.
Definition both_out (F : nat) (sin zf zd : list Qc) : ffe_dfe_result := if (F =? 1)%nat then OutDfe sin zd else OutBoth sin zf zd.
Lemma decisions_map lv sin : lv <> [] -> decisions lv sin (map (sliced lv) sin).
Proof.
  intros N. split; [apply map_length|]. intros n Hn. rewrite (map_nth_lt _ _ _ 0%Qc) by auto. now apply sliced_nearest.
Qed.
Lemma lastn_length {A} m (l : list A) : (m <= length l)%nat -> length (lastn m l) = m.
Proof. intros H. unfold lastn. rewrite skipn_length. lia. Qed.
(** ffe_dfe with a DFE *)
Lemma ffe_dfe_spec x ffe dfe levels osr phase zf zd : x <> [] -> ffe <> [] -> dfe <> [] -> slicer_levels levels <> [] -> 0 < osr ->
  (forall z, zf = Some z -> length z = length ffe) -> (forall z, zd = Some z -> length z = length dfe) ->
  exists sin sout zo, ffe_dfe x ffe (Some dfe) levels osr phase zf zd =
      Ok (both_out (length ffe) sin zo (firstn (length dfe) (dfe_contents osr phase (past_dfe dfe zd) sout (length x)))) /\
    equaliser_equation ffe dfe (past_ffe zf) (past_dfe dfe zd) (slicer_levels levels) osr phase x sin sout /\
    length zo = length ffe /\ forall j, (j < length ffe)%nat -> nth j zo 0%Qc = at_time (past_ffe zf) x (Z.of_nat (length x) - Z.of_nat (length ffe) + Z.of_nat j).
Proof.
  intros Nx Nf Nd NL Ho Hzf Hzd. assert (HF : (0 < length ffe)%nat) by (destruct ffe; [congruence|cbn; lia]). assert (HD : (0 < length dfe)%nat) by (destruct dfe; [congruence|cbn; lia]).
  assert (HX : (0 < length x)%nat) by (destruct x; [congruence|cbn; lia]).
  destruct (ffe_memory_ok (length ffe) zf HF Hzf) as (z & Ez & Lz & Tz). set (md := past_dfe dfe zd).
  assert (Lm : length md = length dfe) by (unfold md, past_dfe; destruct zd; [now apply Hzd|apply repeat_length]).
  assert (Em : match zd with None => Ok (repeat (ofZ 0) (length dfe)) | Some q => if (length q =? length dfe)%nat then Ok q else Raise TypeError end = Ok md).
  { unfold md, past_dfe. destruct zd; auto. now rewrite (Hzd l eq_refl), Nat.eqb_refl. }
  destruct (loop_spec ffe dfe levels osr phase z x md HF HD Lz Ho NL Lm (length x) 0 [] [] eq_refl eq_refl eq_refl ltac:(lia)) as (sin & E & L & Q).
  exists sin, (map (sliced (slicer_levels levels)) sin). exists (map (fun j => nth (length x - 1 + j) (z ++ x) 0%Qc) (seq 0 (length ffe))).
  split; [|split; [|split]].
  - unfold ffe_dfe. rewrite Em. cbn [bind]. rewrite Ez. cbn [bind]. rewrite eq_rows by auto. cbn [bind].
    replace (firstn (length dfe) (dfe_contents osr phase md [] 0)) with md in E.
    2:{ unfold dfe_contents, sampling_instants. cbn [Nat.sub seq filter rev map app]. symmetry. apply firstn_all2. lia. }
    rewrite E. cbn [bind]. unfold both_out. destruct (Nat.eqb_spec (length ffe) 1); auto.
    change (-1) with (- Z.of_nat 1). rewrite (np_get_neg _ _ []) by (rewrite map_length, seq_length; lia). cbn [bind]. do 2 f_equal.
    rewrite map_length, seq_length. rewrite nth_map_seq by lia. apply map_ext. intros j. f_equal. lia.
  - split; auto. split; [now apply decisions_map|]. intros n Hn. rewrite Q by auto. f_equal. apply tap_sum_ext. intros i Hi. apply Tz. lia.
  - now rewrite map_length, seq_length.
  - intros j Hj. rewrite nth_map_seq by auto. rewrite <- Tz by lia. rewrite at_time_rev by lia. f_equal. lia.
Qed.
Lemma ffe_only_spec x ffe levels osr phase zf zd : x <> [] -> (1 < length ffe)%nat -> (forall z, zf = Some z -> length z = length ffe) ->
  ffe_dfe x ffe None levels osr phase zf zd = Ok (OutFfe (map (fun n => tap_sum ffe (past_ffe zf) x 0 n) (seq 0 (length x))) (lastn (length ffe) x)).
Proof.
  intros Nx HF Hzf. destruct (ffe_memory_ok (length ffe) zf ltac:(lia) Hzf) as (z & Ez & Lz & Tz). unfold ffe_dfe.
  destruct (Nat.eqb_spec (length ffe) 1); [lia|]. rewrite Ez. cbn [bind]. rewrite convolve_ffe by (auto; lia). do 2 f_equal.
  - apply map_ext_in. intros q Hq. apply tap_sum_ext. intros i Hi. apply Tz. lia.
  - unfold lastn. replace (-1 * Z.of_nat (length ffe)) with (- Z.of_nat (length ffe)) by lia. rewrite slice_from_neg by lia. reflexivity.
Qed.

(** Solutions of the equaliser equation are unique. *)
Lemma equaliser_unique ffe dfe mx md levels osr phase x s1 o1 s2 o2 :
  equaliser_equation ffe dfe mx md levels osr phase x s1 o1 -> equaliser_equation ffe dfe mx md levels osr phase x s2 o2 -> s1 = s2 /\ o1 = o2.
Proof.
  intros (L1 & (D1 & N1) & E1) (L2 & (D2 & N2) & E2).
  assert (H : forall n, (n < length x)%nat -> nth n s1 0%Qc = nth n s2 0%Qc /\ nth n o1 0%Qc = nth n o2 0%Qc).
  { induction n as [n IH] using (well_founded_induction lt_wf). intros Hn.
    assert (Es : nth n s1 0%Qc = nth n s2 0%Qc).
    { rewrite E1, E2 by auto. f_equal. apply sumQ_map_ext. intros j _. f_equal. f_equal. apply contents_ext. intros i Hi. apply IH; lia. }
    split; auto. apply nearest_unique with levels (nth n s1 0%Qc); [apply N1; lia|rewrite Es; apply N2; lia]. }
  split; apply (nth_ext_def 0%Qc); try lia; intros n Hn; apply H; lia.
Qed.

(** Streaming. *)
Lemma at_time_app mx x1 x2 m k : - k <= Z.of_nat m -> at_time (firstn m (rev x1 ++ mx)) x2 k = at_time mx (x1 ++ x2) (Z.of_nat (length x1) + k).
Proof.
  intros H. rewrite at_time_firstn by auto. unfold at_time. destruct (Z.ltb_spec k 0), (Z.ltb_spec (Z.of_nat (length x1) + k) 0); try lia.
  - rewrite app_nth2 by (rewrite rev_length; lia). rewrite rev_length. f_equal. lia.
  - rewrite app_nth1 by (rewrite rev_length; lia). rewrite rev_nth by lia. rewrite app_nth1 by lia. f_equal. lia.
  - rewrite app_nth2 by lia. f_equal. lia.
Qed.
Lemma filter_none (p : nat -> bool) a k : (forall s, (a <= s < a + k)%nat -> p s = false) -> filter p (seq a k) = [].
Proof.
  revert a. induction k as [|k IH]; intros a H; auto. cbn [seq filter]. rewrite H by lia. apply IH. intros. apply H. lia.
Qed.
Lemma filter_seq_shift (p : nat -> bool) a k : filter p (seq a k) = map (fun s => (a + s)%nat) (filter (fun s => p (a + s)%nat) (seq 0 k)).
Proof.
  induction k as [|k IH]; auto. rewrite !seq_S, !filter_app, map_app, IH. f_equal. cbn [Nat.add filter]. now destruct (p (a + k)%nat).
Qed.
Lemma mod_shift N osr s : 0 < osr -> N mod osr = 0 -> (N + s) mod osr = s mod osr.
Proof. intros Ho H. rewrite Zplus_mod, H, Z.add_0_l. apply Z.mod_mod. lia. Qed.
Lemma instants_add osr phase N k : 0 < osr -> Z.of_nat N mod osr = 0 -> phase mod osr + osr / 2 < osr ->
  sampling_instants osr phase (N + k) = map (fun s => (N + s)%nat) (sampling_instants osr phase k) ++ sampling_instants osr phase N.
Proof.
  intros Ho HN Hp. unfold sampling_instants. set (h := Z.to_nat (osr / 2)). assert (Hh : osr / 2 = Z.of_nat h) by (unfold h; lia). rewrite Hh in Hp.
  set (p := fun s => Z.of_nat s mod osr =? phase mod osr).
  assert (HN2 : exists q, Z.of_nat N = osr * q /\ 0 <= q). { exists (Z.of_nat N / osr). assert (Q := Z.div_mod (Z.of_nat N) osr ltac:(lia)). split; [lia|]. apply Z.div_pos; lia. }
  destruct HN2 as (q & Hq & Q0).
  assert (None : forall s, (N - h <= s < N)%nat -> p s = false).
  { intros s Hs. unfold p. apply Z.eqb_neq. intros E. assert (N <> 0)%nat by lia. assert (0 < q) by nia.
    assert (M : Z.of_nat s mod osr = Z.of_nat s - osr * (q - 1)).
    { symmetry. apply Z.mod_unique with (q - 1); [left; nia|lia]. }
    nia. }
  assert (F0 : filter p (seq 0 N) = filter p (seq 0 (N - h))).
  { replace N with ((N - h) + (N - (N - h)))%nat at 1 by lia. rewrite seq_app, filter_app. rewrite (filter_none p (0 + (N - h))); [apply app_nil_r|]. intros s Hs. apply None. lia. }
  destruct (Nat.le_gt_cases h k) as [H|H].
  - replace (N + k - h)%nat with (N + (k - h))%nat by lia. rewrite seq_app, filter_app, rev_app_distr, F0. f_equal. rewrite Nat.add_0_l, filter_seq_shift, map_rev. f_equal. f_equal.
    apply filter_ext. intros s. unfold p. rewrite Nat2Z.inj_add, mod_shift by auto. reflexivity.
  - replace (k - h)%nat with 0%nat by lia. cbn [seq filter rev map app]. f_equal.
    replace (N + k - h)%nat with ((N - h) + (N + k - h - (N - h)))%nat by lia. rewrite seq_app, filter_app. rewrite (filter_none p (0 + (N - h))); [apply app_nil_r|]. intros s Hs. apply None. lia.
Qed.
Lemma nth_app_firstn j L (u v : list Qc) : (j < L)%nat -> nth j (u ++ firstn L v) 0%Qc = nth j (u ++ v) 0%Qc.
Proof.
  intros H. destruct (Nat.lt_ge_cases j (length u)); [now rewrite !app_nth1|]. rewrite !app_nth2 by lia. apply nth_firstn. lia.
Qed.
Lemma contents_add osr phase md L N k o1 o2 : 0 < osr -> Z.of_nat N mod osr = 0 -> phase mod osr + osr / 2 < osr -> length o1 = N ->
  forall j, (j < L)%nat -> nth j (dfe_contents osr phase (firstn L (dfe_contents osr phase md o1 N)) o2 k) 0%Qc = nth j (dfe_contents osr phase md (o1 ++ o2) (N + k)) 0%Qc.
Proof.
  intros Ho HN Hp L1 j Hj. unfold dfe_contents at 1. rewrite nth_app_firstn by auto. unfold dfe_contents. rewrite instants_add by auto. rewrite map_app, map_map, <- app_assoc. f_equal. f_equal; [|f_equal].
  - apply map_ext. intros s. rewrite app_nth2 by lia. f_equal. lia.
  - apply map_ext_in. intros s Hs. apply instants_lt in Hs. now rewrite app_nth1 by lia.
Qed.
Lemma equaliser_app ffe dfe mx mx2 md levels osr phase x1 x2 s1 o1 s2 o2 : 0 < osr -> Z.of_nat (length x1) mod osr = 0 -> phase mod osr + osr / 2 < osr ->
  (forall k, - k < Z.of_nat (length ffe) -> at_time mx2 x2 k = at_time mx (x1 ++ x2) (Z.of_nat (length x1) + k)) ->
  equaliser_equation ffe dfe mx md levels osr phase x1 s1 o1 ->
  equaliser_equation ffe dfe mx2 (firstn (length dfe) (dfe_contents osr phase md o1 (length x1))) levels osr phase x2 s2 o2 ->
  equaliser_equation ffe dfe mx md levels osr phase (x1 ++ x2) (s1 ++ s2) (o1 ++ o2).
Proof.
  intros Ho HN Hp M (L1 & (D1 & N1) & E1) (L2 & (D2 & N2) & E2). split; [rewrite !app_length; lia|]. split.
  - split; [rewrite !app_length; lia|]. intros n Hn. destruct (Nat.lt_ge_cases n (length s1)).
    + rewrite !app_nth1 by lia. now apply N1.
    + rewrite !app_nth2 by lia. rewrite D1. apply N2. rewrite app_length in Hn. lia.
  - intros n Hn. rewrite app_length in Hn. destruct (Nat.lt_ge_cases n (length x1)) as [H|H].
    + rewrite app_nth1 by lia. rewrite E1 by auto. f_equal.
      * apply sumQ_map_ext. intros i _. f_equal. unfold at_time. destruct (Z.ltb_spec (Z.of_nat n - Z.of_nat i) 0); auto. rewrite app_nth1 by lia. reflexivity.
      * apply sumQ_map_ext. intros j _. f_equal. f_equal. apply contents_ext. intros i Hi. now rewrite app_nth1 by lia.
    + rewrite app_nth2 by lia. rewrite L1. set (m := (n - length x1)%nat). assert (En : n = (length x1 + m)%nat) by lia. clearbody m. subst n. rewrite E2 by lia. f_equal.
      * unfold tap_sum. apply sumQ_map_ext. intros i Hi. apply in_seq in Hi. f_equal. rewrite M by lia. f_equal. lia.
      * apply sumQ_map_ext. intros j Hj. apply in_seq in Hj. f_equal. apply contents_add; auto; lia.
Qed.
(** Two calls in a row. *)
Lemma zo_past zf x1 x2 zo F : (0 < F)%nat -> length zo = F -> (forall j, (j < F)%nat -> nth j zo 0%Qc = at_time (past_ffe zf) x1 (Z.of_nat (length x1) - Z.of_nat F + Z.of_nat j)) ->
  forall k, - k <= Z.of_nat F -> at_time (rev zo) x2 k = at_time (past_ffe zf) (x1 ++ x2) (Z.of_nat (length x1) + k).
Proof.
  intros HF L H k Hk. rewrite at_time_rev by lia. destruct (Z.ltb_spec k 0) as [C|C].
  - rewrite app_nth1 by lia. rewrite H by lia. unfold at_time. replace (Z.of_nat (length x1) - Z.of_nat F + Z.of_nat (Z.to_nat (k + Z.of_nat (length zo)))) with (Z.of_nat (length x1) + k) by lia.
    destruct (Z.ltb_spec (Z.of_nat (length x1) + k) 0); auto. rewrite app_nth1 by lia. reflexivity.
  - rewrite app_nth2 by lia. unfold at_time. destruct (Z.ltb_spec (Z.of_nat (length x1) + k) 0); [lia|]. rewrite app_nth2 by lia. f_equal. lia.
Qed.
Lemma stream_spec x1 x2 ffe dfe levels osr phase zf zd : x1 <> [] -> x2 <> [] -> ffe <> [] -> dfe <> [] -> slicer_levels levels <> [] -> 0 < osr ->
  (forall z, zf = Some z -> length z = length ffe) -> (forall z, zd = Some z -> length z = length dfe) ->
  Z.of_nat (length x1) mod osr = 0 -> phase mod osr + osr / 2 < osr ->
  exists s1 f1 d1 s2 f2 d2, ffe_dfe x1 ffe (Some dfe) levels osr phase zf zd = Ok (both_out (length ffe) s1 f1 d1) /\
    length s1 = length x1 /\ length s2 = length x2 /\
    (forall zf1, (zf1 = Some f1 \/ (length ffe = 1%nat /\ zf1 = None)) -> ffe_dfe x2 ffe (Some dfe) levels osr phase zf1 (Some d1) = Ok (both_out (length ffe) s2 f2 d2)) /\
    ffe_dfe (x1 ++ x2) ffe (Some dfe) levels osr phase zf zd = Ok (both_out (length ffe) (s1 ++ s2) f2 d2).
Proof.
  intros Nx1 Nx2 Nf Nd NL Ho Hzf Hzd HN Hp. set (md := past_dfe dfe zd).
  assert (HF : (0 < length ffe)%nat) by (destruct ffe; [congruence|cbn; lia]).
  assert (Lm : length md = length dfe) by (unfold md, past_dfe; destruct zd; [now apply Hzd|apply repeat_length]).
  destruct (ffe_dfe_spec x1 ffe dfe levels osr phase zf zd) as (s1 & o1 & f1 & C1 & E1 & L1 & T1); auto. fold md in C1, E1.
  set (d1 := firstn (length dfe) (dfe_contents osr phase md o1 (length x1))) in *.
  assert (Ld1 : length d1 = length dfe) by (unfold d1, dfe_contents; rewrite firstn_length, app_length; lia).
  destruct (ffe_dfe_spec x2 ffe dfe levels osr phase (Some f1) (Some d1)) as (s2 & o2 & f2 & C2 & E2 & L2 & T2); auto; [now intros z [= <-]|now intros z [= <-]|].
  cbn [past_dfe past_ffe] in C2, E2, T2.
  assert (Q := equaliser_app ffe dfe (past_ffe zf) (rev f1) md (slicer_levels levels) osr phase x1 x2 s1 o1 s2 o2 Ho HN Hp
     (fun k Hk => zo_past zf x1 x2 f1 (length ffe) HF L1 T1 k ltac:(lia)) E1 E2).
  destruct (ffe_dfe_spec (x1 ++ x2) ffe dfe levels osr phase zf zd) as (s & o & f & C & E & L & T); auto; [destruct x1; [congruence|discriminate]|]. fold md in C, E.
  destruct (equaliser_unique _ _ _ _ _ _ _ _ _ _ _ _ E Q) as [-> ->].
  assert (F : f = f2).
  { apply (nth_ext_def 0%Qc); [lia|]. intros j Hj. rewrite T, T2 by lia. rewrite (zo_past zf x1 x2 f1 (length ffe) HF L1 T1) by lia. f_equal. rewrite app_length. lia. }
  assert (D : firstn (length dfe) (dfe_contents osr phase md (o1 ++ o2) (length (x1 ++ x2))) = firstn (length dfe) (dfe_contents osr phase d1 o2 (length x2))).
  { assert (LA : forall m q n, length m = length dfe -> length (firstn (length dfe) (dfe_contents osr phase m q n)) = length dfe) by (intros; unfold dfe_contents; rewrite firstn_length, app_length; lia).
    apply (nth_ext_def 0%Qc); [now rewrite !LA|]. intros j Hj. rewrite LA in Hj by auto. rewrite !nth_firstn by auto. symmetry. rewrite app_length. apply contents_add; auto.
    destruct E1 as (_ & (D1 & _) & _). destruct E2 as (A & _). destruct E as (B & (B1 & _) & _). rewrite !app_length in *. lia. }
  rewrite F, D in C. exists s1, f1, d1, s2, f2, (firstn (length dfe) (dfe_contents osr phase d1 o2 (length x2))). split; [exact C1|]. split; [apply E1|]. split; [apply E2|]. split; [|exact C].
  intros zf1 [->|[F1 ->]]; [exact C2|]. rewrite <- C2. unfold ffe_dfe. rewrite Ld1, Nat.eqb_refl. cbn [bind].
  replace (ffe_memory (length ffe) (Some f1)) with (ffe_memory (length ffe) None); auto. unfold ffe_memory. rewrite L1, F1. cbn [Nat.eqb Nat.sub repeat].
  destruct f1 as [|a [|b f1]]; cbn [length] in L1; auto; lia.
Qed.

(** FfeDfeFilterTII and ffe_dfe *)
Lemma instants_one phase n : sampling_instants 1 phase n = rev (seq 0 n).
Proof.
  unfold sampling_instants. change (Z.to_nat (1 / 2)) with 0%nat. rewrite Nat.sub_0_r. f_equal. rewrite (filter_ext _ (fun _ => true)) by (intros; now rewrite !Z.mod_1_r).
  generalize (seq 0 n). intros l. induction l as [|a l IH]; cbn [filter]; [|rewrite IH]; reflexivity.
Qed.
Lemma contents_one phase md sout n j : nth j (dfe_contents 1 phase md sout n) 0%Qc = at_time md sout (Z.of_nat n - Z.of_nat (S j)).
Proof.
  unfold dfe_contents. rewrite instants_one. unfold at_time. destruct (Z.ltb_spec (Z.of_nat n - Z.of_nat (S j)) 0).
  - rewrite app_nth2 by (rewrite map_length, rev_length, seq_length; lia). rewrite map_length, rev_length, seq_length. f_equal. lia.
  - rewrite app_nth1 by (rewrite map_length, rev_length, seq_length; lia). rewrite (map_nth_lt _ _ _ 0%nat) by (rewrite rev_length, seq_length; lia).
    rewrite rev_nth by (rewrite seq_length; lia). rewrite seq_length, seq_nth by lia. f_equal. lia.
Qed.
Lemma tap_sum_dfe dfe md sout phase n c : tap_sum (c :: dfe) md sout 1 n = sumQ (map (fun j => nth j dfe 0 * nth j (dfe_contents 1 phase md sout n) 0)%Qc (seq 0 (length dfe))).
Proof.
  unfold tap_sum. rewrite sumQ_shift. cbn [length]. rewrite Nat.sub_succ, Nat.sub_0_r. apply sumQ_map_ext. intros j _. rewrite contents_one. reflexivity.
Qed.
(** Matched DFE *)
Lemma matched_decision levels s w v : In s levels -> (forall l, In l levels -> l <> s -> (Qcabs w + Qcabs w < Qcabs (l - s))%Qc) -> nearest_level levels (s + w)%Qc v -> v = s.
Proof.
  intros Hs Sp N. assert (In v levels) by (eapply nearest_in; eauto). destruct (Qc_eq_dec v s) as [|Ne]; auto. exfalso. specialize (Sp v H Ne).
  destruct N as (k & _ & _ & M & _). specialize (M s Hs).
  assert (A : (Qcabs (v - s) <= Qcabs (s + w - v) + Qcabs w)%Qc) by qabs.
  assert (B : Qcabs (s + w - s)%Qc = Qcabs w) by (f_equal; ring). rewrite B in M. qlra.
Qed.
