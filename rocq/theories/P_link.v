(** Proofs about the analog part of the example link. *)
From Coq Require Import Reals Lra Lia String.
From Verif Require Import Py B_list M_delay M_soft M_channel S_channel P_channel P_pulse M_ctle S_ctle P_ctle M_link S_link.
Import List.
Open Scope R_scope.

Lemma usable_shape pulse beta : usable_pulse pulse beta -> exists p, shape pulse beta p.
Proof. intros [->|[->|[B [->| ->]]]]; eexists; [apply shape_rect|apply shape_sinc|apply shape_rcos|apply shape_rrc]; auto. Qed.
Lemma block_nonempty (x : list R) o : (1 <= o)%nat -> x <> [] -> concat (map (fun v => v :: repeat 0 (o - 1)) x) <> [].
Proof. intros Ho Nx E. apply (f_equal (@length R)) in E. rewrite concat_block_length in E by auto. destruct x; [congruence|]. cbn [length] in E. lia. Qed.
Lemma pulse_streams pulse beta o s u v z : (1 <= o)%nat -> (1 <= s)%nat -> u <> [] -> v <> [] -> usable_pulse pulse beta -> length z = (2 * (o * s) - 1)%nat ->
  exists y1 z1 y2 z2, pulse_shape u (Z.of_nat o) (Z.of_nat s) pulse beta (Some z) = Ok (y1, z1) /\ length y1 = (length u * o)%nat /\ length z1 = length z /\
    pulse_shape v (Z.of_nat o) (Z.of_nat s) pulse beta (Some z1) = Ok (y2, z2) /\
    pulse_shape (u ++ v) (Z.of_nat o) (Z.of_nat s) pulse beta (Some z) = Ok (y1 ++ y2, z2).
Proof.
  intros Ho Hs Nu Nv HP Lz. destruct (usable_shape _ _ HP) as (p & Sh).
  destruct (pulse_shape_spec u o s pulse beta p z Ho Hs Sh Nu Lz) as (y1 & z1 & E1 & L1 & L2 & _).
  destruct (pulse_shape_spec v o s pulse beta p z1 Ho Hs Sh Nv L2) as (y2 & z2 & E2 & _).
  exists y1, z1, y2, z2. split; auto. split; auto. split; [lia|]. split; auto.
  rewrite (pulse_shape_lfilter u _ _ _ _ p) in E1 by auto. rewrite (pulse_shape_lfilter v _ _ _ _ p) in E2 by auto. rewrite (pulse_shape_lfilter _ _ _ _ _ p) by auto.
  rewrite map_app, concat_app. pose proof (lf_pulse p o s Ho Hs) as LS. rewrite <- Lz in LS. apply (lfilter_stream _ _ _ _ _ _ z1); auto; now apply block_nonempty.
Qed.
Lemma pulse_ok pulse beta o s u z : (1 <= o)%nat -> (1 <= s)%nat -> u <> [] -> usable_pulse pulse beta -> length z = (2 * (o * s) - 1)%nat ->
  exists y z', pulse_shape u (Z.of_nat o) (Z.of_nat s) pulse beta (Some z) = Ok (y, z') /\ length y = (length u * o)%nat /\ length z' = length z.
Proof. intros Ho Hs Nu HP Lz. destruct (pulse_streams pulse beta o s u u z) as (y1 & z1 & y2 & z2 & E & L1 & L2 & _); eauto 6. Qed.
Lemma nonempty_mul (u y : list R) o : (1 <= o)%nat -> u <> [] -> length y = (length u * o)%nat -> y <> [].
Proof. intros Ho Nu L ->. destruct u; [congruence|]. cbn [length] in L. lia. Qed.
Lemma usable_lf b a m : usable b (AList a) m -> lf_shape b a m.
Proof. intros (U1 & U2 & U3 & U4). exact (conj U2 (conj U1 (conj U3 U4))). Qed.
Lemma call_ok c o s u n0 : channel_sized c o s -> linear_type c -> u <> [] ->
  exists p y pz z, pulse_shape u (Z.of_nat o) (Z.of_nat s) (ch_pulse c) (ch_rolloff c) (Some (ch_pulse_zi c)) = Ok (p, pz) /\ length p = (length u * o)%nat /\ length y = length p /\
    channel_call c u n0 = (ch_with c pz z, Ok (Some (map Some y))) /\ channel_sized (ch_with c pz z) o s /\
    ((ch_type c = "pulse"%string /\ y = p /\ z = ch_zi c) \/ (ch_type c = "isi_awgn"%string /\ exists a, ch_iir c = Some a /\ lfilter (ch_fir c) a p (ch_zi c) = Ok (y, z))).
Proof.
  intros (Ho & Hs & Eo & Es & HP & Lz & a & Ea & Us) T Nu. destruct (pulse_ok _ _ _ _ _ _ Ho Hs Nu HP Lz) as (p & pz & E & Lp & Lpz).
  assert (Np : p <> []) by (apply (nonempty_mul u p o); auto).
  assert (LS : lf_shape (ch_fir c) a (length (ch_zi c))) by (apply usable_lf; exact Us).
  unfold channel_call. rewrite Eo, Es, E. destruct T as [T|(T & N)].
  - exists p, p, pz, (ch_zi c). split; auto. split; auto. split; auto. cbn [ch_with ch_type]. rewrite T. split; [reflexivity|]. split; [|auto].
    repeat split; auto; [cbn [ch_with ch_pulse_zi]; lia|]. exists a. auto.
  - destruct (lfilter_spec _ _ p _ LS Np) as (y & z & F & Ly & L2 & _). exists p, y, pz, z. split; auto. split; auto. split; auto. cbn [ch_with ch_type ch_iir ch_fir ch_snr ch_zi]. rewrite T, Ea, N.
    change ("isi_awgn" =? "pulse")%string with false. change ("isi_awgn" =? "awgn")%string with false. change ("isi_awgn" =? "isi_awgn")%string with true. cbv iota.
    unfold awgn_channel. cbn [bind coef_list]. rewrite F. cbn [bind fst snd]. split; [reflexivity|]. split; [|right; split; eauto].
    repeat split; auto; [cbn [ch_with ch_pulse_zi]; lia|]. exists a. split; auto. cbn [ch_with ch_fir ch_zi]. rewrite L2. exact Us.
Qed.
Lemma call_streams c o s u v n0 n1 n2 : channel_sized c o s -> linear_type c -> u <> [] -> v <> [] ->
  exists c1 y1 c2 y2, channel_call c u n0 = (c1, Ok (Some (map Some y1))) /\ length y1 = (length u * o)%nat /\ channel_sized c1 o s /\ linear_type c1 /\
    channel_call c1 v n1 = (c2, Ok (Some (map Some y2))) /\ channel_call c (u ++ v) n2 = (c2, Ok (Some (map Some (y1 ++ y2)))).
Proof.
  intros S T Nu Nv. assert (Nuv : u ++ v <> []) by (intros X; apply app_eq_nil in X as [-> _]; congruence).
  destruct (call_ok c o s u n0 S T Nu) as (p1 & y1 & pz1 & z1 & P1 & Lp1 & Ly1 & C1 & S1 & R1).
  assert (T1 : linear_type (ch_with c pz1 z1)) by exact T.
  destruct (call_ok _ o s v n1 S1 T1 Nv) as (p2 & y2 & pz2 & z2 & P2 & Lp2 & Ly2 & C2 & S2 & R2).
  destruct (call_ok c o s (u ++ v) n2 S T Nuv) as (p3 & y3 & pz3 & z3 & P3 & Lp3 & Ly3 & C3 & S3 & R3).
  cbn [ch_with ch_pulse ch_rolloff ch_pulse_zi ch_type ch_iir ch_fir ch_zi] in *.
  destruct S as (Ho & Hs & Eo & Es & HP & Lz & a & Ea & Us).
  destruct (pulse_streams _ _ o s u v _ Ho Hs Nu Nv HP Lz) as (q1 & w1 & q2 & w2 & Q1 & _ & _ & Q2 & Q3).
  rewrite P1 in Q1. injection Q1 as <- <-. rewrite P2 in Q2. injection Q2 as <- <-. rewrite P3 in Q3. injection Q3 as -> ->.
  exists (ch_with c pz1 z1), y1, (ch_with (ch_with c pz1 z1) pz2 z2), y2. split; auto. split; [lia|]. split; auto. split; auto. split; auto.
  assert (G : y3 = y1 ++ y2 /\ z3 = z2).
  { destruct R1 as [(X & -> & ->)|(X & a1 & E1 & F1)], R2 as [(X2 & -> & ->)|(X2 & a2 & E2 & F2)], R3 as [(X3 & -> & ->)|(X3 & a3 & E3 & F3)]; try congruence; auto.
    rewrite Ea in *. injection E1 as <-. injection E2 as <-. injection E3 as <-.
    assert (LS : lf_shape (ch_fir c) a (length (ch_zi c))) by (apply usable_lf; exact Us).
    rewrite (lfilter_stream _ _ _ _ _ y1 z1 y2 z2 LS) in F3; auto; [now injection F3 as <- <-|apply (nonempty_mul u p1 o); auto|apply (nonempty_mul v p2 o); auto]. }
  destruct G as (-> & ->). rewrite C3. reflexivity.
Qed.
Lemma calls_concat o s : forall chunks c x normal n0, channel_sized c o s -> linear_type c -> Forall (fun x => x <> []) (x :: chunks) ->
  exists c' cs, channel_calls c (x :: chunks) normal = (c', Ok (map (fun y => Some (map Some y)) cs)) /\ map (@length R) cs = map (fun x => (length x * o)%nat) (x :: chunks) /\
    channel_sized c' o s /\ channel_call c (concat (x :: chunks)) n0 = (c', Ok (Some (map Some (concat cs)))).
Proof.
  induction chunks as [|v chunks IH]; intros c x normal n0 S T F; inversion F as [|? ? Nx F']; subst.
  - destruct (call_ok c o s x (normal 0%nat) S T Nx) as (p & y & pz & z & P & Lp & Ly & C & S' & _). exists (ch_with c pz z), [y].
    cbn [channel_calls concat]. rewrite C. rewrite !app_nil_r. split; [reflexivity|]. split; [cbn [map]; f_equal; lia|]. split; auto.
    destruct (call_ok c o s x n0 S T Nx) as (p' & y' & pz' & z' & P' & _ & _ & C' & _ & R'). rewrite C'. rewrite P in P'. injection P' as <- <-.
    destruct (call_ok c o s x (normal 0%nat) S T Nx) as (p'' & y'' & pz'' & z'' & P'' & _ & _ & C'' & _ & R''). rewrite C in C''. injection C'' as E1 E2 E3. rewrite P in P''. injection P'' as <- <-.
    assert (INJ : forall l l' : list R, map Some l = map Some l' -> l = l') by (induction l as [|q l IH]; intros [|q' l'] E; try discriminate; auto; injection E as -> E; f_equal; auto).
    apply INJ in E3. subst y''. subst z''. destruct R' as [(X & -> & ->)|(X & a1 & F1 & F2)], R'' as [(X2 & -> & ->)|(X2 & a2 & G1 & G2)]; try congruence; auto.
  - assert (Nc : concat (v :: chunks) <> []) by (inversion F'; subst; cbn [concat]; intros X; apply app_eq_nil in X as [-> _]; congruence).
    destruct (call_streams c o s x (concat (v :: chunks)) (normal 0%nat) (fun _ => 0) n0 S T Nx Nc) as (c1 & y1 & c2 & y2 & C1 & L1 & S1 & T1 & C2 & C3).
    destruct (IH c1 v (fun i => normal (Datatypes.S i)) (fun _ => 0) S1 T1 F') as (c' & cs & D1 & D2 & D3 & D4).
    rewrite C2 in D4. injection D4 as <- E4.
    assert (INJ : forall l l' : list R, map Some l = map Some l' -> l = l') by (induction l as [|q l IH']; intros [|q' l'] E; try discriminate; auto; injection E as -> E; f_equal; auto).
    apply INJ in E4. subst y2. exists c2, (y1 :: cs). cbn [channel_calls]. rewrite C1. cbn [channel_calls] in D1. rewrite D1. split; [reflexivity|]. split; [cbn [map]; f_equal; auto|]. split; auto.
Qed.
(** Noise is added to the output only. *)
Lemma noisy_call c o s u n0 snr c1 y : channel_sized c o s -> ch_snr c = Some snr -> (ch_type c = "awgn" \/ ch_type c = "isi_awgn")%string -> u <> [] ->
  channel_call (noise_free c) u n0 = (c1, Ok (Some (map Some y))) ->
  exists c2, channel_call c u n0 = (c2, Ok (Some (awgn y snr n0))) /\ noise_free c2 = c1 /\ channel_sized c2 o s /\ ch_snr c2 = Some snr /\ ch_type c2 = ch_type c.
Proof.
  intros (Ho & Hs & Eo & Es & HP & Lz & a & Ea & Us) N T Nu E. destruct (pulse_ok _ _ _ _ _ _ Ho Hs Nu HP Lz) as (p & pz & P & Lp & Lpz).
  assert (Np : p <> []) by (apply (nonempty_mul u p o); auto). pose proof (usable_lf _ _ _ Us) as LS. destruct (lfilter_spec _ _ p _ LS Np) as (w & z & F & Lw & L2 & _).
  assert (INJ : forall l l' : list R, map Some l = map Some l' -> l = l') by (induction l as [|q l IH']; intros [|q' l'] X; try discriminate; auto; injection X as -> X; f_equal; auto).
  unfold channel_call in *. cbn [noise_free ch_osr ch_span ch_pulse ch_rolloff ch_pulse_zi] in E. rewrite Eo, Es, P in *. cbn [ch_with noise_free ch_type ch_snr ch_iir ch_zi ch_fir ch_pulse_zi] in *.
  destruct T as [T|T]; rewrite T in *; cbn in E |- *; rewrite N.
  - injection E as <- E. apply INJ in E. subst y. eexists. split; [reflexivity|]. unfold noise_free. cbn. rewrite T. cbn. split; [reflexivity|]. split; [|auto]. repeat split; auto; [cbn; lia|]. exists a. auto.
  - rewrite Ea in *. unfold awgn_channel in *. cbn [bind coef_list] in *. rewrite F in *. cbn [bind fst snd] in *. injection E as <- E. apply INJ in E. subst y.
    eexists. split; [reflexivity|]. unfold noise_free. cbn. rewrite T. cbn. split; [reflexivity|]. split; [|auto]. repeat split; auto; [cbn; lia|]. exists a. split; auto. cbn. rewrite L2. exact Us.
Qed.
Lemma noise_free_sized c o s : channel_sized c o s -> channel_sized (noise_free c) o s.
Proof. intros (Ho & Hs & Eo & Es & HP & Lz & a & Ea & Us). repeat split; auto. exists a. auto. Qed.
Lemma noise_free_linear c : (ch_type c = "awgn" \/ ch_type c = "isi_awgn")%string -> linear_type (noise_free c).
Proof. unfold linear_type, noise_free. cbn. intros [-> | ->]; cbn; auto. Qed.
Lemma noisy_calls o s snr : forall chunks c normal c' cs, channel_sized c o s -> ch_snr c = Some snr -> (ch_type c = "awgn" \/ ch_type c = "isi_awgn")%string -> Forall (fun x => x <> []) chunks ->
  channel_calls (noise_free c) chunks normal = (c', Ok (map (fun y => Some (map Some y)) cs)) ->
  exists c'', channel_calls c chunks normal = (c'', Ok (map (fun i => Some (awgn (nth i cs []) snr (normal i))) (seq 0 (length cs)))) /\ noise_free c'' = c'.
Proof.
  induction chunks as [|x chunks IH]; intros c normal c' cs S N T F E; cbn [channel_calls] in *.
  - injection E as <- E. destruct cs; [|discriminate]. eexists. split; reflexivity.
  - inversion F as [|? ? Nx F']; subst. destruct (call_ok _ o s x (normal 0%nat) (noise_free_sized _ _ _ S) (noise_free_linear _ T) Nx) as (p & y & pz & z & P & Lp & Ly & C & S' & _).
    destruct (noisy_call c o s x (normal 0%nat) snr _ y S N T Nx C) as (c2 & C2 & NF & S2 & N2 & T2). rewrite C in E. rewrite C2.
    destruct (channel_calls _ chunks _) as [c3 [ys|e]] eqn:E3 in E; [|discriminate]. injection E as -> E. destruct cs as [|y' cs]; [discriminate|]. cbn [map] in E. injection E as E E'.
    assert (INJ : forall l l' : list R, map Some l = map Some l' -> l = l') by (induction l as [|q l IH']; intros [|q' l'] X; try discriminate; auto; injection X as -> X; f_equal; auto).
    apply INJ in E. subst y'. subst ys. rewrite <- NF in E3. rewrite <- T2 in T. destruct (IH c2 _ c' cs S2 N2 T F' E3) as (c'' & D & D2). rewrite D. exists c''. split; auto.
    cbn [length seq map nth]. do 3 f_equal. rewrite <- seq_shift, map_map. reflexivity.
Qed.
(** * Proportional coefficients *)
Lemma conv_split_first b x n : conv_at b x n = nth 0 b 0 * nth n x 0 + conv_at (fb b) x n.
Proof.
  rewrite fb_conv, conv_upto, sum_upto_S. rewrite Nat.sub_0_r. reflexivity.
Qed.
Lemma conv_prop g b a x n : (forall k, nth k b 0 = g * nth k a 0) -> conv_at b x n = g * conv_at a x n.
Proof. intros H. rewrite !conv_upto, <- sum_upto_scale. apply sum_upto_ext. intros k _. rewrite H. ring. Qed.
Lemma conv_map_l g b x n : conv_at b (map (Rmult g) x) n = g * conv_at b x n.
Proof.
  rewrite !conv_upto, <- sum_upto_scale. apply sum_upto_ext. intros k _. replace 0 with (g * 0) at 2 by ring. rewrite map_nth. ring.
Qed.
Lemma nth_zeros k m : nth k (repeat 0 m) 0 = 0.
Proof. destruct (Nat.lt_ge_cases k m); [now apply repeat_nth|apply nth_overflow; rewrite repeat_length; lia]. Qed.
Lemma lfilter_proportional g b a x m : (forall k, nth k b 0 = g * nth k a 0) -> lf_shape b a m -> x <> [] -> lfilter b a x (repeat 0 m) = Ok (map (Rmult g) x, repeat 0 m).
Proof.
  intros H LS Nx. assert (A0 : nth 0 a 0 <> 0) by (destruct LS as (_ & _ & A & _); exact A). apply lfilter_inv; rewrite ?repeat_length, ?map_length; auto.
  - intros n Hn. rewrite nth_zeros, (conv_prop g b a x n H), conv_map_l, (conv_split_first a). replace 0 with (g * 0) at 1 by ring. rewrite map_nth. field. exact A0.
  - intros j Hj. rewrite !nth_zeros, (conv_prop g b a x _ H), conv_map_l, (conv_split_first a). rewrite (nth_overflow x) by lia. field. exact A0.
Qed.
(** * CTLE *)
Lemma ctle_streams c u v : ctle_sized c -> u <> [] -> v <> [] ->
  exists c1 y1 c2 y2, ctle_call c u = Ok (Some (c1, y1)) /\ length y1 = length u /\ ctle_sized c1 /\ ctle_call c1 v = Ok (Some (c2, y2)) /\ ctle_call c (u ++ v) = Ok (Some (c2, y1 ++ y2)).
Proof.
  intros (D & Lz) Nu Nv. destruct (design_spec _ _ _ _ _ D) as (b & a & E & Lb & La & A0 & _).
  assert (LS : forall q : list R, length q = length (ct_zi c) -> lf_shape b a (length q)) by (intros q Hq; repeat split; [intros ->; discriminate|intros ->; discriminate|lra|lia]).
  destruct (lfilter_spec b a u _ (LS _ eq_refl) Nu) as (y1 & z1 & E1 & L1 & L2 & _). destruct (lfilter_spec b a v z1 (LS z1 L2) Nv) as (y2 & z2 & E2 & L3 & L4 & _).
  pose proof (lfilter_stream _ _ _ _ _ _ _ _ _ (LS _ eq_refl) Nu Nv E1 E2) as E3. unfold ctle_call, ctle. rewrite E. cbn [bind]. rewrite E1, E3. cbn [bind fst snd].
  do 4 eexists. split; [reflexivity|]. split; auto. split; [split; [exact D|cbn; congruence]|]. cbn [ct_zeros ct_poles ct_gain ct_fs ct_osr ct_zi]. rewrite E. cbn [bind]. rewrite E2. cbn [bind fst snd]. split; reflexivity.
Qed.
Lemma ctle_once c u : ctle_sized c -> u <> [] -> exists c1 y1, ctle_call c u = Ok (Some (c1, y1)) /\ length y1 = length u /\ ctle_sized c1.
Proof. intros S N. destruct (ctle_streams c u u S N N) as (c1 & y1 & _ & _ & A & B & C & _). eauto. Qed.
Lemma ctle_calls_concat : forall chunks c x, ctle_sized c -> Forall (fun x => x <> []) (x :: chunks) ->
  exists c' ys, ctle_calls c (x :: chunks) = Ok (Some (c', ys)) /\ map (@length R) ys = map (@length R) (x :: chunks) /\ ctle_sized c' /\ ctle_call c (concat (x :: chunks)) = Ok (Some (c', concat ys)).
Proof.
  induction chunks as [|v chunks IH]; intros c x S F; inversion F as [|? ? Nx F']; subst.
  - destruct (ctle_once c x S Nx) as (c1 & y1 & E & L & S1). exists c1, [y1]. cbn [ctle_calls concat]. rewrite !app_nil_r, E. cbn [bind map]. split; [reflexivity|]. split; [congruence|]. auto.
  - assert (Nc : concat (v :: chunks) <> []) by (inversion F'; subst; cbn [concat]; intros X; apply app_eq_nil in X as [-> _]; congruence).
    destruct (ctle_streams c x (concat (v :: chunks)) S Nx Nc) as (c1 & y1 & c2 & y2 & C1 & L1 & S1 & C2 & C3). destruct (IH c1 v S1 F') as (c' & ys & D1 & D2 & D3 & D4).
    rewrite C2 in D4. injection D4 as <- ->. exists c2, (y1 :: ys). cbn [ctle_calls] in *. rewrite C1. cbn [bind]. rewrite D1. cbn [bind]. split; [reflexivity|]. split; [cbn [map] in *; congruence|]. split; auto.
Qed.
Lemma cprod_perm l l' : Permutation.Permutation l l' -> cprod l = cprod l'.
Proof. induction 1; cbn [cprod]; auto; try congruence. apply Cx_eq; cbn; ring. Qed.
Lemma prod_perm l l' : Permutation.Permutation l l' -> prod_R l = prod_R l'.
Proof. induction 1; cbn [prod_R fold_right] in *; auto; [unfold prod_R in *; congruence|unfold prod_R; ring|congruence]. Qed.
Lemma matched_design zeros poles dc fs osr : zeros <> [] -> Forall (fun f => f <> 0) zeros -> Permutation.Permutation zeros poles -> 0 < fs * osr -> 1 / 10 ^ 14 < linear_gain dc -> design zeros poles dc fs osr.
Proof.
  intros Nz Fz P Pos G. assert (Np : poles <> []) by (intros ->; apply Permutation.Permutation_sym, Permutation.Permutation_nil in P; congruence).
  assert (Fp : Forall (fun f => f <> 0) poles) by (eapply Permutation.Permutation_Forall; eauto). repeat split; auto.
  unfold corner_at. rewrite (prod_perm _ _ (Permutation.Permutation_map (fun f => 1 + 2 * (fs * osr) / Rabs f) P)). fold (corner_at poles (2 * (fs * osr))).
  destruct (corner_pos poles (2 * (fs * osr)) Fp ltac:(lra)) as (r & Hr & Er). fold (corner_product poles (cre (2 * (fs * osr)))) in Er. rewrite corner_cre in Er by auto. apply cre_inj in Er. rewrite Er.
  replace (linear_gain dc * r / r) with (linear_gain dc) by (field; lra). exact G.
Qed.
Lemma matched_filter zeros poles dc fs osr b a : design zeros poles dc fs osr -> Permutation.Permutation zeros poles -> get_ctle_filter zeros poles dc fs osr = Ok (Some (b, a)) ->
  forall k, nth k b 0 = linear_gain dc * nth k a 0.
Proof.
  intros D P E. destruct (design_spec _ _ _ _ _ D) as (b' & a' & E' & Lb & La & A0 & Hd & V). rewrite E in E'. injection E' as <- <-.
  assert (H : forall k, nth k b 0 = nth k (map (Rmult (linear_gain dc)) a) 0).
  { apply poly_eq. intros x. destruct (V (cre x)) as (Vb & Va). apply (cmul_cancel _ _ _ Hd). rewrite Vb.
    assert (S : ceval (map (Rmult (linear_gain dc)) a) (cre x) = cmul (cre (linear_gain dc)) (ceval a (cre x))).
    { clear. induction a as [|c a IH]; cbn [map ceval]; [apply Cx_eq; cbn; ring|]. rewrite IH. apply Cx_eq; cbn; ring. }
    rewrite S. transitivity (cmul (cre (linear_gain dc)) (cmul (cre (corner_at poles (2 * (fs * osr)))) (ceval a (cre x)))); [|ring]. rewrite Va.
    rewrite (Permutation.Permutation_length P). f_equal. f_equal. apply cprod_perm. now apply Permutation.Permutation_map. }
  intros k. rewrite H. replace 0 with (linear_gain dc * 0) at 1 by ring. apply map_nth.
Qed.
