(** Proofs about the channel object with jitter and the link with such a channel. *)
From Coq Require Import Reals Lra Lia String.
From Verif Require Import Py PyQ B_list M_sim M_simcheck M_rxloop M_delay M_channel S_channel P_channel P_pulse M_jitter S_jitter P_jitter Prop_jitter M_link S_link P_link S_full P_full M_chanjit S_chanjit.
Import List.
Open Scope R_scope.

(** * Displacements of at most one sample, at the ends too *)
Lemma Rabs_3 a b c A B C : Rabs a <= A -> Rabs b <= B -> Rabs c <= C -> Rabs (a + b + c) <= A + B + C.
Proof. intros. eapply Rle_trans; [apply Rabs_triang|]. apply Rplus_le_compat; auto. eapply Rle_trans; [apply Rabs_triang|]. lra. Qed.
Lemma interp_near y Y h k e : (4 <= length y)%nat -> (forall k, Rabs (nth k y 0) <= Y) -> 0 < h -> (k < length y)%nat -> Rabs e <= h ->
  Rabs (cubic_interp h y (INR k * h + e) - nth k y 0) <= 26 * Y / h * Rabs e.
Proof.
  intros L B Hh Hk He. pose proof (Y_nonneg y Y B) as P. assert (C0 : 0 <= Y / h) by (apply Rmult_le_pos; [lra|left; now apply Rinv_0_lt_compat]).
  apply Rabs_le_iff in He. pose proof (Rabs_pos e) as E0.
  assert (GO : forall i u v b, (i + 1 < length y)%nat -> Rabs (u ^ 2 + u * v + v ^ 2 - 1) <= b -> Rabs ((1 - u) ^ 2 + (1 - u) * (1 - v) + (1 - v) ^ 2 - 1) <= 7 - b ->
    Rabs (spline_piece y i u - spline_piece y i v) <= 26 * Y * Rabs (u - v)).
  { intros i u v b Hi Q R. pose proof (B i) as B0. pose proof (B (i + 1)%nat) as B1. pose proof (moment_bound y Y L B i ltac:(lia)) as M0. pose proof (moment_bound y Y L B (i + 1)%nat ltac:(lia)) as M1.
    unfold spline_piece. set (a := nth i y 0) in *. set (c := nth (i + 1) y 0) in *. set (m := moment y i) in *. set (m' := moment y (i + 1)) in *. set (q := u ^ 2 + u * v + v ^ 2 - 1) in *. set (r := (1 - u) ^ 2 + (1 - u) * (1 - v) + (1 - v) ^ 2 - 1) in *.
    match goal with |- Rabs ?e <= _ => replace e with ((u - v) * ((c - a) + (- r / 6) * m + q / 6 * m')) by (unfold q, r; field) end.
    rewrite Rabs_mult, Rmult_comm. apply Rmult_le_compat_r; [apply Rabs_pos|].
    eapply Rle_trans; [apply (Rabs_3 _ _ _ (2 * Y) ((7 - b) / 6 * (20 * Y)) (b / 6 * (20 * Y)))|lra].
    - apply Rabs_le_iff in B0, B1. apply Rabs_le. lra.
    - rewrite Rabs_mult. apply Rmult_le_compat; auto using Rabs_pos. unfold Rdiv. rewrite Rabs_mult, Rabs_Ropp, (Rabs_right (/ 6)) by lra. lra.
    - rewrite Rabs_mult. apply Rmult_le_compat; auto using Rabs_pos. unfold Rdiv. rewrite Rabs_mult, (Rabs_right (/ 6)) by lra. lra. }
  destruct (Rle_dec 0 (INR k * h + e)) as [A|A]; [destruct (Rle_dec (INR k * h + e) (INR (length y - 1) * h)) as [A'|A']|].
  - rewrite <- (interp_node h y k Hh L Hk) at 1. eapply Rle_trans; [apply (interp_lip y Y L B h Hh); [lra|split; [apply Rmult_le_pos; [apply pos_INR|lra]|apply Rmult_le_compat_r; [lra|apply le_INR; lia]]]|].
    replace (INR k * h + e - INR k * h) with e by ring. apply Rmult_le_compat_r; auto. unfold Rdiv in *. lra.
  - assert (K : k = (length y - 1)%nat).
    { destruct (Nat.eq_dec k (length y - 1)) as [K|K]; auto. exfalso. apply A'. assert (INR k + 1 <= INR (length y - 1)) by (rewrite <- S_INR; apply le_INR; lia).
      apply Rle_trans with ((INR k + 1) * h); [lra|apply Rmult_le_compat_r; lra]. }
    set (i := (length y - 2)%nat). assert (IK : INR k = INR i + 1) by (rewrite <- S_INR; f_equal; unfold i; lia).
    assert (E : 0 <= e) by (rewrite <- K in A'; lra).
    rewrite (interp_at h y _ i Hh); [|unfold i; lia|right; rewrite IK in *; lra|left; unfold i; lia]. replace (nth k y 0) with (spline_piece y i 1) by (rewrite piece_right; f_equal; unfold i; lia).
    assert (U : (INR k * h + e) / h - INR i = 1 + e / h) by (rewrite IK; field; lra). rewrite U. assert (U2 : 0 <= e / h <= 1) by (split; [apply Rmult_le_pos; [lra|left; now apply Rinv_0_lt_compat]|apply (Rmult_le_reg_r h); auto; unfold Rdiv; rewrite Rmult_assoc, Rinv_l by lra; lra]).
    set (w := e / h) in *. eapply Rle_trans; [apply (GO i _ _ 6); [unfold i; lia| |]; apply Rabs_le; split; nra|].
    replace (1 + w - 1) with w by ring. unfold w, Rdiv. rewrite Rabs_mult, (Rabs_right (/ h)) by (apply Rle_ge; left; now apply Rinv_0_lt_compat). lra.
  - assert (K : k = 0%nat). { destruct (Nat.eq_dec k 0) as [K|K]; auto. exfalso. apply A. assert (1 <= INR k) by (apply (le_INR 1); lia). assert (1 * h <= INR k * h) by (apply Rmult_le_compat_r; lra). lra. }
    subst k. change (INR 0) with 0 in *. rewrite Rmult_0_l, Rplus_0_l in *. rewrite (interp_at h y _ 0 Hh); [|lia|left; reflexivity|right; rewrite INR_h_step; change (INR 0) with 0; lra].
    rewrite <- piece_left. change (INR 0) with 0. rewrite Rminus_0_r. assert (U2 : -1 <= e / h <= 0). { split; apply (Rmult_le_reg_r h); auto; unfold Rdiv; rewrite Rmult_assoc, Rinv_l by lra; lra. }
    set (w := e / h) in *. eapply Rle_trans; [apply (GO 0%nat _ _ 1); [lia| |]; apply Rabs_le; split; nra|].
    replace (w - 0) with w by ring. unfold w, Rdiv. rewrite Rabs_mult, (Rabs_right (/ h)) by (apply Rle_ge; left; now apply Rinv_0_lt_compat). lra.
Qed.
Lemma jittered_near o sigma draw y out peak J : (1 <= o)%nat -> (4 <= length y)%nat -> jittered o sigma draw y out -> Forall (fun v => Rabs v <= peak) y -> (forall j, Rabs (sigma * draw j) <= J) -> INR o * J <= 1 ->
  forall k, (k < length y)%nat -> Rabs (nth k out 0 - nth k y 0) <= 26 * (INR o * J) * peak.
Proof.
  intros Ho L [_ V] Pk Dj OJ k Hk. assert (Oo : 0 < INR o) by (apply lt_0_INR; lia). assert (P : 0 < / INR o) by now apply Rinv_0_lt_compat.
  rewrite (V _ (cubic_is_spline _ y P L) k Hk). set (e := sigma * draw (k / o)%nat). specialize (Dj (k / o)%nat). fold e in Dj.
  assert (PN : 0 <= peak). { rewrite Forall_forall in Pk. apply Rle_trans with (Rabs (nth 0 y 0)); [apply Rabs_pos|apply Pk, nth_In; lia]. }
  assert (B : forall j, Rabs (nth j y 0) <= peak). { intros j. rewrite Forall_forall in Pk. destruct (Nat.lt_ge_cases j (length y)); [apply Pk, nth_In; auto|]. rewrite nth_overflow, Rabs_R0 by auto. auto. }
  unfold Rdiv. eapply Rle_trans; [apply (interp_near y peak (/ INR o) k e L B P Hk)|].
  - apply (Rmult_le_reg_l (INR o)); auto. rewrite Rinv_r by lra. apply Rle_trans with (INR o * J); auto. apply Rmult_le_compat_l; lra.
  - unfold Rdiv. rewrite Rinv_inv. replace (26 * peak * INR o * Rabs e) with (26 * INR o * peak * Rabs e) by ring. replace (26 * (INR o * J) * peak) with (26 * INR o * peak * J) by ring.
    apply Rmult_le_compat_l; auto. apply Rmult_le_pos; auto. lra.
Qed.

(** * One call *)
Lemma pulse_jittered o s pulse beta sigma draw z u : (1 <= o)%nat -> (1 <= s)%nat -> usable_pulse pulse beta -> length z = (2 * (o * s) - 1)%nat -> (4 <= length u * o)%nat -> 1e-8 < Rabs sigma ->
  exists y out pz, pulse_shape u (Z.of_nat o) (Z.of_nat s) pulse beta (Some z) = Ok (y, pz) /\ length y = (length u * o)%nat /\ length pz = length z /\
    pulse_shape_rj u (Z.of_nat o) (Z.of_nat s) pulse beta sigma draw (Some z) = Ok (out, pz) /\ jittered o sigma draw y out.
Proof.
  intros Ho Hs HP Lz L Sg. assert (Nu : u <> []) by (intros ->; cbn [length] in L; lia). destruct (pulse_ok pulse beta o s u z Ho Hs Nu HP Lz) as (y & pz & E & Ly & Lp).
  destruct (C73_value u o _ pulse beta sigma draw (Some z) y pz Ho E ltac:(lia) Sg) as (out & E' & Lo & V). exists y, out, pz. repeat split; auto.
Qed.
Definition rj_stage (sigma : R) (jit normal : nat -> nat -> R) : stage := fun i c x => channel_call_rj sigma c x (jit i) (normal i).
Lemma calls_rj sigma : forall xs c jit normal, stage_calls (rj_stage sigma jit normal) c xs = channel_calls_rj sigma c xs jit normal.
Proof.
  induction xs as [|x xs IH]; intros c jit normal; [reflexivity|]. cbn [stage_calls channel_calls_rj]. unfold rj_stage at 1. destruct (channel_call_rj sigma c x (jit 0%nat) (normal 0%nat)) as (c1 & [y|e]); auto.
  change (fun i => rj_stage sigma jit normal (S i)) with (rj_stage sigma (fun i => jit (S i)) (fun i => normal (S i))). now rewrite IH.
Qed.
Lemma run_rj sigma lms : forall n l jit normal, via_run (rj_stage sigma jit normal) lms n l = full_link_run_rj sigma lms n l jit normal.
Proof.
  induction n as [|n IH]; intros l jit normal; [reflexivity|]. cbn [via_run full_link_run_rj]. change (via_call (rj_stage sigma jit normal 0%nat) lms l) with (full_link_call_rj sigma lms l (jit 0%nat) (normal 0%nat)).
  apply obind_ext. intros ((l1, b), d). change (fun i => rj_stage sigma jit normal (S i)) with (rj_stage sigma (fun i => jit (S i)) (fun i => normal (S i))). now rewrite IH.
Qed.
(** * Histories *)
Lemma jittered_chunks_nil o sigma jit : jittered_chunks o sigma jit [] [].
Proof. split; auto. cbn [length]. intros i Hi. lia. Qed.
Lemma jittered_chunks_cons o sigma jit y ys out outs : jittered o sigma (jit 0%nat) y out -> jittered_chunks o sigma (fun i => jit (S i)) ys outs -> jittered_chunks o sigma jit (y :: ys) (out :: outs).
Proof. intros J [L H]. split; [cbn; congruence|]. intros [|i] Hi; [exact J|]. cbn [nth length] in *. apply H. lia. Qed.
Lemma jittered_lengths o sigma jit ys outs : jittered_chunks o sigma jit ys outs -> map (@length R) outs = map (@length R) ys.
Proof.
  intros [L H]. apply (nth_ext_def 0%nat); [now rewrite !map_length|]. rewrite map_length. intros i Hi. rewrite !(map_nth_lt _ _ _ []) by lia. apply H. lia.
Qed.
Lemma sized_with c o s pz : channel_sized c o s -> length pz = length (ch_pulse_zi c) -> channel_sized (ch_with c pz (ch_zi c)) o s.
Proof. intros (Ho & Hs & Eo & Es & HP & Lz & a & Ea & Us) L. repeat split; auto; [cbn [ch_with ch_pulse_zi]; lia|]. exists a. auto. Qed.
Lemma sized_with2 c o s pz z : channel_sized c o s -> length pz = length (ch_pulse_zi c) -> length z = length (ch_zi c) -> channel_sized (ch_with c pz z) o s.
Proof. intros (Ho & Hs & Eo & Es & HP & Lz & a & Ea & Us) L L2. repeat split; auto; [cbn [ch_with ch_pulse_zi]; lia|]. exists a. split; auto. cbn [ch_with ch_fir ch_zi]. rewrite L2. exact Us. Qed.
Lemma history_pulse o s sigma : 1e-8 < Rabs sigma -> forall xs c jit normal, channel_sized c o s -> ch_type c = "pulse"%string -> long_chunks o xs ->
  exists c' ys outs, channel_calls c xs normal = (c', Ok (returned ys)) /\ channel_calls_rj sigma c xs jit normal = (c', Ok (returned outs)) /\ jittered_chunks o sigma jit ys outs /\ map (@length R) ys = map (fun x => (length x * o)%nat) xs.
Proof.
  intros Sg. induction xs as [|x xs IH]; intros c jit normal S T F.
  - exists c, [], []. do 2 (split; [reflexivity|]). split; [apply jittered_chunks_nil|reflexivity].
  - inversion F as [|? ? Lx F']; subst. pose proof S as (Ho & Hs & Eo & Es & HP & Lz & _).
    destruct (pulse_jittered o s _ _ sigma (jit 0%nat) _ x Ho Hs HP Lz Lx Sg) as (y & out & pz & E1 & Ly & Lp & E2 & J).
    destruct (IH (ch_with c pz (ch_zi c)) (fun i => jit (Datatypes.S i)) (fun i => normal (Datatypes.S i)) (sized_with c o s pz S Lp) T F') as (c' & ys & outs & C1 & C2 & JJ & LL).
    exists c', (y :: ys), (out :: outs). cbn [channel_calls channel_calls_rj]. unfold channel_call, channel_call_rj. rewrite Eo, Es, E1, E2. cbn [ch_with ch_type]. rewrite T. change ("pulse" =? "pulse")%string with true. cbv iota.
    fold (ch_with c pz (ch_zi c)). rewrite C1, C2. split; [reflexivity|]. split; [reflexivity|]. split; [now apply jittered_chunks_cons|]. cbn [map]. now rewrite Ly, LL.
Qed.
Lemma history_awgn o s sigma snr : 1e-8 < Rabs sigma -> forall xs c jit normal, channel_sized c o s -> ch_type c = "awgn"%string -> ch_snr c = Some snr -> long_chunks o xs ->
  exists c' ys outs, channel_calls c xs normal = (c', Ok (map (fun i => Some (awgn (nth i ys []) snr (normal i))) (seq 0 (length ys)))) /\
    channel_calls (noise_free c) xs normal = (noise_free c', Ok (returned ys)) /\
    channel_calls_rj sigma c xs jit normal = (c', Ok (map (fun i => Some (awgn (nth i outs []) snr (normal i))) (seq 0 (length outs)))) /\ jittered_chunks o sigma jit ys outs /\ map (@length R) ys = map (fun x => (length x * o)%nat) xs.
Proof.
  intros Sg. induction xs as [|x xs IH]; intros c jit normal S T N F.
  - exists c, [], []. do 3 (split; [reflexivity|]). split; [apply jittered_chunks_nil|reflexivity].
  - inversion F as [|? ? Lx F']; subst. pose proof S as (Ho & Hs & Eo & Es & HP & Lz & _).
    destruct (pulse_jittered o s _ _ sigma (jit 0%nat) _ x Ho Hs HP Lz Lx Sg) as (y & out & pz & E1 & Ly & Lp & E2 & J).
    destruct (IH (ch_with c pz (ch_zi c)) (fun i => jit (Datatypes.S i)) (fun i => normal (Datatypes.S i)) (sized_with c o s pz S Lp) T N F') as (c' & ys & outs & C1 & C0 & C2 & JJ & LL).
    exists c', (y :: ys), (out :: outs). cbn [channel_calls channel_calls_rj]. unfold channel_call, channel_call_rj. cbn [noise_free ch_osr ch_span ch_pulse ch_rolloff ch_pulse_zi ch_zi]. rewrite Eo, Es, E1, E2. cbn [ch_with ch_type ch_snr].
    rewrite noise_free_pulse by auto. rewrite T, N. change ("awgn" =? "pulse")%string with false. change ("awgn" =? "awgn")%string with true. change ("pulse" =? "pulse")%string with true. cbv iota.
    change (ch_with (noise_free c) pz (ch_zi c)) with (noise_free (ch_with c pz (ch_zi c))). fold (ch_with c pz (ch_zi c)). rewrite C0, C1, C2. cbn [length seq map nth]. rewrite <- !seq_shift, !map_map.
    repeat (split; [reflexivity|]). split; [now apply jittered_chunks_cons|]. now rewrite Ly, LL.
Qed.
Lemma history_isi o s sigma a : 1e-8 < Rabs sigma -> forall xs c jit normal, channel_sized c o s -> ch_type c = "isi_awgn"%string -> ch_snr c = None -> ch_iir c = Some a -> long_chunks o xs ->
  exists c' c0 ys outs zs, channel_calls (pulse_only c) xs normal = (c0, Ok (returned ys)) /\ channel_calls_rj sigma c xs jit normal = (c', Ok (returned zs)) /\ jittered_chunks o sigma jit ys outs /\
    map (@length R) ys = map (fun x => (length x * o)%nat) xs /\ map (@length R) zs = map (@length R) outs /\ ch_pulse_zi c' = ch_pulse_zi c0 /\
    (xs <> [] -> lfilter (ch_fir c) a (concat outs) (ch_zi c) = Ok (concat zs, ch_zi c')).
Proof.
  intros Sg. induction xs as [|x xs IH]; intros c jit normal S T N Ia F.
  - exists c, (pulse_only c), [], [], []. do 2 (split; [reflexivity|]). split; [apply jittered_chunks_nil|]. do 3 (split; [reflexivity|]). congruence.
  - inversion F as [|? ? Lx F']; subst. pose proof S as (Ho & Hs & Eo & Es & HP & Lz & a' & Ea & Us). rewrite Ia in Ea. injection Ea as <-.
    destruct (pulse_jittered o s _ _ sigma (jit 0%nat) _ x Ho Hs HP Lz Lx Sg) as (y & out & pz & E1 & Ly & Lp & E2 & J). pose proof J as [Lo _].
    assert (LS : lf_shape (ch_fir c) a (length (ch_zi c))) by (apply usable_lf; exact Us). assert (No : out <> []) by (intros ->; cbn [length] in Lo; lia).
    destruct (lfilter_spec _ _ out _ LS No) as (w & z & Fl & Lw & L2 & _).
    destruct (IH (ch_with c pz z) (fun i => jit (Datatypes.S i)) (fun i => normal (Datatypes.S i)) (sized_with2 c o s pz z S Lp L2) T N Ia F') as (c' & c0 & ys & outs & zs & C1 & C2 & JJ & LL & LZ & PZ & LF).
    exists c'. cbn [channel_calls channel_calls_rj]. unfold channel_call, channel_call_rj. cbn [pulse_only ch_osr ch_span ch_pulse ch_rolloff ch_pulse_zi ch_zi]. rewrite Eo, Es, E1, E2. cbn [ch_with ch_type ch_snr ch_iir ch_fir ch_zi].
    rewrite T, N, Ia. change ("isi_awgn" =? "pulse")%string with false. change ("isi_awgn" =? "awgn")%string with false. change ("isi_awgn" =? "isi_awgn")%string with true. change ("pulse" =? "pulse")%string with true. cbv iota.
    unfold awgn_channel. cbn [bind coef_list]. rewrite Fl. cbn [bind fst snd].
    assert (PO : exists c0', channel_calls (ch_with (pulse_only c) pz (ch_zi c)) xs (fun i => normal (Datatypes.S i)) = (c0', Ok (returned ys)) /\ ch_pulse_zi c0' = ch_pulse_zi c0).
    { clear - C1. revert C1. generalize (ch_zi c) z. intros z1 z2. change (pulse_only (ch_with c pz z2)) with (ch_with (pulse_only c) pz z2). generalize (fun i => normal (Datatypes.S i)). revert ys c0 pz. induction xs as [|x xs IH]; intros ys c0 pz n E; cbn [channel_calls] in *.
      - injection E as <- E. destruct ys; [|discriminate]. eexists. split; reflexivity.
      - unfold channel_call in *. cbn [ch_with pulse_only ch_osr ch_span ch_pulse ch_rolloff ch_pulse_zi ch_zi ch_type] in *. destruct (pulse_shape _ _ _ _ _ _) as [(p & q)|e]; [|discriminate E]. change ("pulse" =? "pulse")%string with true in *. cbv iota in *.
        change (ch_with (ch_with (pulse_only c) pz z2) q z2) with (ch_with (pulse_only c) q z2) in E. change (ch_with (ch_with (pulse_only c) pz z1) q z1) with (ch_with (pulse_only c) q z1).
        destruct (channel_calls (ch_with (pulse_only c) q z2) xs _) as (c2 & [w|e]) eqn:E2; [|discriminate E]. injection E as -> E. destruct ys as [|y' ys]; [discriminate E|]. cbn [returned map] in E. injection E as E E3. subst w.
        destruct (IH ys c0 q _ E2) as (c3 & -> & Q). exists c3. split; [|exact Q]. unfold returned. cbn [map]. now rewrite E. }
    destruct PO as (c0' & C1' & PZ'). exists c0', (y :: ys), (out :: outs), (w :: zs).
    change (ch_type (pulse_only c) =? "pulse")%string with true. cbv iota. change (ch_with (ch_with c pz (ch_zi c)) pz z) with (ch_with c pz z). rewrite C1', C2.
    repeat (split; [reflexivity|]). split; [now apply jittered_chunks_cons|]. split; [cbn [map]; now rewrite Ly, LL|]. split; [cbn [map]; now rewrite Lw, LZ|]. split; [congruence|]. intros _. cbn [concat].
    destruct xs as [|x2 xs].
    + destruct ys as [|]; [|discriminate LL]. destruct outs as [|? outs]; [|destruct JJ as [JL _]; discriminate JL]. destruct zs as [|]; [|discriminate LZ]. cbn [concat channel_calls_rj] in *. injection C2 as <-. rewrite !app_nil_r. exact Fl.
    + specialize (LF ltac:(discriminate)). apply (lfilter_stream _ _ _ _ _ _ z); auto. intros X. pose proof (jittered_lengths _ _ _ _ _ JJ) as JL. rewrite LL in JL. destruct outs as [|o2 outs]; [discriminate JL|]. cbn [map concat] in *. injection JL as JL _. inversion F' as [|? ? L4 _]; subst. apply app_eq_nil in X as [-> _]. cbn [length] in JL. lia.
Qed.

(** * Size of the disturbance *)
Lemma some_inj : forall l l' : list R, map Some l = map Some l' -> l = l'.
Proof. induction l as [|q l IH']; intros [|q' l'] X; try discriminate; auto; injection X as -> X; f_equal; auto. Qed.
Lemma rect_chunks_bounded c o s A xs normal c0 ys : channel_sized c o s -> ch_pulse_zi c = repeat 0 (2 * (o * s) - 1) -> ch_pulse c = "rect"%string -> ch_type c = "pulse"%string -> 0 <= A ->
  Forall (fun x => x <> [] /\ Forall (fun v => Rabs v <= A) x) xs -> channel_calls c xs normal = (c0, Ok (returned ys)) -> Forall (fun y => Forall (fun v => Rabs v <= A) y) ys.
Proof.
  intros S Z0 P T HA F E. destruct xs as [|x xs]; [cbn [channel_calls] in E; injection E as _ E; destruct ys; [constructor|discriminate]|].
  assert (NE : Forall (fun x => x <> []) (x :: xs)) by (eapply Forall_impl; [|exact F]; now intros y [Hy _]).
  assert (NC : concat (x :: xs) <> []) by (inversion NE; subst; cbn [concat]; intros X; apply app_eq_nil in X as [-> _]; congruence).
  destruct (calls_concat o s xs c x normal (fun _ => 0) S (or_introl T) NE) as (c1 & cs & A1 & A2 & _ & A3). rewrite E in A1. injection A1 as <- A1. apply returned_inj in A1. subst cs.
  assert (BC : Forall (fun v => Rabs v <= A) (concat ys)).
  { destruct (call_ok c o s (concat (x :: xs)) (fun _ => 0) S (or_introl T) NC) as (p & y & pz & z & Q & _ & _ & C & _ & R).
    destruct R as [(_ & -> & _)|(X & _)]; [|congruence]. rewrite A3 in C. injection C as _ C. apply some_inj in C. subst p. destruct S as (Ho & Hs & Eo & Es & _). rewrite P, Z0 in Q. apply (rect_bounded _ o s A _ _ Ho Hs NC HA) in Q; auto.
    rewrite Forall_forall in *. intros v Hv. apply in_concat in Hv. destruct Hv as (w & Hw & Hv). destruct (F w Hw) as [_ G]. rewrite Forall_forall in G. auto. }
  apply Forall_forall. intros y Hy. rewrite Forall_forall in *. intros v Hv. apply BC. apply in_concat. eauto.
Qed.
Lemma within_nth d xs ys : length xs = length ys -> (forall i, (i < length ys)%nat -> length (nth i xs []) = length (nth i ys []) /\ forall j, (j < length (nth i ys []))%nat -> Rabs (nth j (nth i xs []) 0 - nth j (nth i ys []) 0) <= d) -> within d xs ys.
Proof.
  revert ys. induction xs as [|x xs IH]; intros [|y ys] L H; try discriminate L; [constructor|]. constructor; [destruct (H 0%nat ltac:(cbn; lia)) as [H1 H2]; cbn [nth] in *; split; auto; rewrite H1; auto|].
  apply IH; [injection L; auto|]. intros i Hi. apply (H (S i)). cbn [length]. lia.
Qed.
Section Disturbed.
Variables (c : channel) (o s : nat) (A J sigma : R) (xs : list (list R)) (jit normal : nat -> nat -> R).
Hypotheses (Sg : 1e-8 < Rabs sigma) (S : channel_sized c o s) (Z0 : ch_pulse_zi c = repeat 0 (2 * (o * s) - 1)) (P : ch_pulse c = "rect"%string) (HA : 0 <= A)
  (F : Forall (fun x => (4 <= length x * o)%nat /\ Forall (fun v => Rabs v <= A) x) xs) (DJ : forall i j, Rabs (sigma * jit i j) <= J) (OJ : INR o * J <= 1).
Lemma F_long : long_chunks o xs.
Proof. eapply Forall_impl; [|exact F]. now intros x [H _]. Qed.
Lemma F_nonempty : Forall (fun x => x <> [] /\ Forall (fun v => Rabs v <= A) x) xs.
Proof. eapply Forall_impl; [|exact F]. intros x [H G]. split; auto. intros ->. cbn [length] in H. lia. Qed.
Lemma near_chunks ys outs : jittered_chunks o sigma jit ys outs -> map (@length R) ys = map (fun x => (length x * o)%nat) xs -> Forall (fun y => Forall (fun v => Rabs v <= A) y) ys ->
  forall i, (i < length ys)%nat -> (4 <= length (nth i ys []))%nat /\ length (nth i outs []) = length (nth i ys []) /\
    (forall j, (j < length (nth i ys []))%nat -> Rabs (nth j (nth i outs []) 0 - nth j (nth i ys []) 0) <= 26 * (INR o * J) * A) /\
    Forall (fun v => Rabs v <= A + 26 * (INR o * J) * A) (nth i outs []).
Proof.
  intros [JL JJ] LL B i Hi. specialize (JJ i Hi). assert (L4 : (4 <= length (nth i ys []))%nat).
  { assert (LI : length (nth i ys []) = (length (nth i xs []) * o)%nat).
    { assert (LX : length ys = length xs) by (apply (f_equal (@length nat)) in LL; now rewrite !map_length in LL). apply (f_equal (fun l => nth i l 0%nat)) in LL. rewrite !(map_nth_lt _ _ _ []) in LL by lia. exact LL. }
    rewrite LI. assert (LX : length ys = length xs) by (apply (f_equal (@length nat)) in LL; now rewrite !map_length in LL). pose proof F_long as FL. unfold long_chunks in FL. rewrite Forall_forall in FL. apply FL, nth_In. lia. }
  assert (Bi : Forall (fun v => Rabs v <= A) (nth i ys [])) by (rewrite Forall_forall in B; apply B, nth_In; auto). destruct S as (Ho & _).
  pose proof (jittered_near o sigma (jit i) _ _ A J Ho L4 JJ Bi (DJ i) OJ) as N. destruct JJ as [Lo _]. split; auto. split; auto. split; auto.
  apply Forall_forall. intros v Hv. destruct (In_nth _ _ 0 Hv) as (k & Hk & <-). rewrite Lo in Hk. specialize (N k Hk). rewrite Forall_forall in Bi. specialize (Bi _ (nth_In _ 0 Hk)). apply Rabs_le_iff in N, Bi. apply Rabs_le. lra.
Qed.
Lemma disturbed_pulse : ch_type c = "pulse"%string ->
  exists c1 c2 cs clean, channel_calls_rj sigma c xs jit normal = (c1, Ok (returned cs)) /\ channel_calls (noise_free c) xs normal = (c2, Ok (returned clean)) /\ within (26 * (INR o * J) * A) cs clean.
Proof.
  intros T. destruct (history_pulse o s sigma Sg xs c jit normal S T F_long) as (c' & ys & outs & C1 & C2 & JJ & LL). destruct (pulse_noise_free xs c normal T) as (c2 & N). rewrite C1 in N. exists c', c2, outs, ys. split; auto. split; auto.
  pose proof (rect_chunks_bounded c o s A xs normal c' ys S Z0 P T HA F_nonempty C1) as B. apply within_nth; [apply JJ|]. intros i Hi. destruct (near_chunks ys outs JJ LL B i Hi) as (_ & N2 & N3 & _). auto.
Qed.
Lemma disturbed_awgn snr Bn : ch_type c = "awgn"%string -> ch_snr c = Some snr -> 0 <= Bn -> (forall i k, Rabs (normal i k) <= Bn) -> 0 <= J ->
  let A' := A + 26 * (INR o * J) * A in
  exists c1 c2 cs clean, channel_calls_rj sigma c xs jit normal = (c1, Ok (returned cs)) /\ channel_calls (noise_free c) xs normal = (c2, Ok (returned clean)) /\
    within (26 * (INR o * J) * A + sqrt (2 * (A' * A') / Rpower 10 (snr / 10)) * Bn) cs clean.
Proof.
  intros T Sn HB NB HJ A'. destruct (history_awgn o s sigma snr Sg xs c jit normal S T Sn F_long) as (c' & ys & outs & C1 & C0 & C2 & JJ & LL).
  assert (TN : ch_type (noise_free c) = "pulse"%string) by (apply noise_free_pulse; auto).
  pose proof (rect_chunks_bounded (noise_free c) o s A xs normal _ ys (noise_free_sized _ _ _ S) Z0 P TN HA F_nonempty C0) as B. pose proof (near_chunks ys outs JJ LL B) as NC. pose proof JJ as [JL _].
  set (noisy := map (fun i => map (fun k => nth k (nth i outs []) 0 + (0 + noise_std (nth i outs []) snr * normal i k)) (seq 0 (length (nth i outs [])))) (seq 0 (length outs))).
  exists c', (noise_free c'), noisy, ys. split.
  { rewrite C2. f_equal. f_equal. unfold returned, noisy. rewrite map_map. apply map_ext_in. intros i Hi. apply in_seq in Hi. f_equal. unfold awgn. rewrite map_map. apply map_ext. intros k.
    destruct (NC i ltac:(lia)) as (N1 & N2 & _). rewrite N2. destruct (Nat.eqb_spec (length (nth i ys [])) 1); [lia|]. reflexivity. }
  split; [exact C0|]. apply within_nth; [unfold noisy; now rewrite map_length, seq_length|]. intros i Hi. destruct (NC i Hi) as (N1 & N2 & N3 & N4). unfold noisy. rewrite nth_map_seq by lia. cbn [Nat.add]. rewrite map_length, seq_length. split; auto.
  intros j Hj. rewrite nth_map_seq by lia. cbn [Nat.add]. destruct (noise_std_bound (nth i outs []) snr A' ltac:(lia) N4) as [S0 S1].
  replace (_ - _) with ((nth j (nth i outs []) 0 - nth j (nth i ys []) 0) + noise_std (nth i outs []) snr * normal i j) by ring. eapply Rle_trans; [apply Rabs_triang|]. apply Rplus_le_compat; auto.
  rewrite Rabs_mult, (Rabs_right (noise_std _ snr)) by lra. apply Rmult_le_compat; auto. apply Rabs_pos.
Qed.
End Disturbed.
