(** C69-C70: the analog stages of the example link. *)
From Coq Require Import Reals Lra Lia String Permutation.
From Verif Require Import Py B_list M_delay M_soft M_channel S_channel P_channel P_pulse Prop_channel M_ctle S_ctle P_ctle M_link S_link P_link.
Import List.
Open Scope R_scope.

(** *** C69: the channel object *)
(** Memories made by the constructor fit, for a FIR channel (no IIR coefficients given). *)
Theorem C69_init : forall pulse o s ty fir beta snr, (1 <= o)%nat -> (1 <= s)%nat -> usable_pulse pulse beta -> fir <> Some [] ->
  exists c, channel_init (channel_data_init pulse (Z.of_nat s) ty fir None beta (Z.of_nat o) snr None None) = Ok c /\
    channel_sized c o s /\ ch_type c = ty /\ ch_snr c = snr /\ ch_fir c = match fir with Some b => b | None => [1] end /\
    ch_pulse_zi c = repeat 0 (2 * (o * s) - 1) /\ ch_zi c = repeat 0 (length (ch_fir c) - 1).
Proof.
  intros pulse o s ty fir beta snr Ho Hs HP NF. unfold channel_init, channel_data_init. cbn [chd_zi chd_iir chd_fir chd_pulse_zi chd_span chd_osr chd_pulse chd_rolloff chd_type chd_snr length].
  set (b := match fir with None => [1] | Some b => b end). assert (Nb : (1 <= length b)%nat) by (unfold b; destruct fir as [[|]|]; cbn; try lia; congruence).
  unfold np_zerosR. destruct (Z.ltb_spec (Z.of_nat (Nat.max 1 (length b)) - 1) 0); [lia|]. cbn [bind]. destruct (Z.ltb_spec (Z.of_nat s * Z.of_nat o * 2 - 1) 0); [nia|]. cbn [bind].
  eexists. split; [reflexivity|]. cbn [ch_osr ch_span ch_pulse ch_rolloff ch_pulse_zi ch_iir ch_fir ch_zi ch_type ch_snr]. replace (Z.to_nat (Z.of_nat s * Z.of_nat o * 2 - 1)) with (2 * (o * s) - 1)%nat by nia. replace (Z.to_nat (Z.of_nat (Nat.max 1 (length b)) - 1)) with (length b - 1)%nat by lia.
  split; [|repeat split; auto]. unfold channel_sized. cbn [ch_osr ch_span ch_pulse ch_rolloff ch_pulse_zi ch_iir ch_fir ch_zi]. rewrite !repeat_length. repeat (split; [now auto|]). exists [1]. split; [reflexivity|].
  unfold usable. cbn [coef_list nth length]. split; [intros E; rewrite E in Nb; cbn in Nb; lia|]. split; [discriminate|]. split; [lra|lia].
Qed.
Print Assumptions C69_init.
(** What one call returns: the shaped pulse (type 'pulse'), or the pulse through the difference equation ('isi_awgn'). *)
Theorem C69_call : forall c o s x g, channel_sized c o s -> linear_type c -> x <> [] ->
  exists p pz y c', pulse_shape x (Z.of_nat o) (Z.of_nat s) (ch_pulse c) (ch_rolloff c) (Some (ch_pulse_zi c)) = Ok (p, pz) /\
    channel_call c x g = (c', Ok (Some (map Some y))) /\ length y = (length x * o)%nat /\ channel_sized c' o s /\ ch_pulse_zi c' = pz /\
    (ch_type c = "pulse"%string -> y = p) /\
    (ch_type c = "isi_awgn"%string -> exists a, ch_iir c = Some a /\ difference_equation (ch_fir c) a (ch_zi c) p y).
Proof.
  intros c o s x g S T N. destruct (call_ok c o s x g S T N) as (p & y & pz & z & P & Lp & Ly & C & S' & H). exists p, pz, y, (ch_with c pz z). split; auto. split; auto. split; [lia|]. split; auto. split; auto.
  destruct S as (Ho & _ & _ & _ & _ & _ & a & Ea & Us). split; intros E; destruct H as [(X & -> & ->)|(X & a' & Ea' & F)]; try congruence.
  rewrite Ea in Ea'. injection Ea' as <-. exists a. split; auto. pose proof (usable_lf _ _ _ Us) as LS. assert (Np : p <> []) by (apply (nonempty_mul x p o); auto).
  destruct (lfilter_spec _ _ p _ LS Np) as (y' & z' & F' & L1 & _ & D & _). rewrite F in F'. injection F' as <- <-. split; auto. intros n Hn. rewrite D at 1 by auto. rewrite conv_upto, fb_conv. destruct LS as (_ & _ & A0 & _). field. exact A0.
Qed.
Print Assumptions C69_call.
(** Without noise any cutting of the signal into chunks gives the output of one call. *)
Theorem C69_any_chunking : forall c o s x xs normal g, channel_sized c o s -> linear_type c -> Forall (fun x => x <> []) (x :: xs) ->
  exists c' cs, channel_calls c (x :: xs) normal = (c', Ok (returned cs)) /\ map (@length R) cs = map (fun x => (length x * o)%nat) (x :: xs) /\
    channel_call c (concat (x :: xs)) g = (c', Ok (Some (map Some (concat cs)))).
Proof. intros c o s x xs normal g S T F. destruct (calls_concat o s xs c x normal g S T F) as (c' & cs & A & B & _ & D). eauto. Qed.
Print Assumptions C69_any_chunking.
(** Noise is added to each chunk on its own, scaled to the power of that chunk; the memories never see it. *)
Theorem C69_noise : forall c o s x xs normal snr, channel_sized c o s -> ch_snr c = Some snr -> (ch_type c = "awgn" \/ ch_type c = "isi_awgn")%string -> Forall (fun x => x <> []) (x :: xs) ->
  exists c' c0' cs, channel_calls (noise_free c) (x :: xs) normal = (c0', Ok (returned cs)) /\
    channel_calls c (x :: xs) normal = (c', Ok (map (fun i => Some (awgn (nth i cs []) snr (normal i))) (seq 0 (length cs)))) /\
    ch_pulse_zi c' = ch_pulse_zi c0' /\ ch_zi c' = ch_zi c0'.
Proof.
  intros c o s x xs normal snr S N T F. destruct (calls_concat o s xs (noise_free c) x normal (fun _ => 0) (noise_free_sized _ _ _ S) (noise_free_linear _ T) F) as (c0' & cs & A & _).
  destruct (noisy_calls o s snr _ _ _ _ _ S N T F A) as (c' & B & E). exists c', c0', cs. split; auto. split; auto. rewrite <- E. split; reflexivity.
Qed.
Print Assumptions C69_noise.
(** (Finding.)  IIR coefficients are lost: whatever they are, the FIR coefficients are used in their place, so that the
    channel b/b does nothing: the output of every history is the shaped pulse. *)
Theorem C69_iir_ignored_refuted : forall pulse o s b a beta x xs normal, (1 <= o)%nat -> (1 <= s)%nat -> usable_pulse pulse beta -> b <> [] -> nth 0 b 0 <> 0 -> Forall (fun x => x <> []) (x :: xs) ->
  exists c c0 cs c' c0', 
    channel_init (channel_data_init pulse (Z.of_nat s) "isi_awgn" (Some b) (Some a) beta (Z.of_nat o) None None None) = Ok c /\
    channel_init (channel_data_init pulse (Z.of_nat s) "pulse" None None beta (Z.of_nat o) None None None) = Ok c0 /\
    channel_calls c (x :: xs) normal = (c', Ok (returned cs)) /\ channel_calls c0 (x :: xs) normal = (c0', Ok (returned cs)).
Proof.
  intros pulse o s b a beta x xs normal Ho Hs HP Nb B0 F.
  destruct (C69_init pulse o s "pulse" None beta None Ho Hs HP ltac:(discriminate)) as (c0 & I0 & S0 & T0 & N0 & _ & Z0 & _).
  assert (Lb : (1 <= length b)%nat) by (destruct b; [congruence|cbn; lia]).
  set (d := channel_data_init pulse (Z.of_nat s) "isi_awgn" (Some b) (Some a) beta (Z.of_nat o) None None None).
  assert (I : channel_init d = Ok (mk_ch pulse (Z.of_nat s) beta "isi_awgn" b (Some b) (Z.of_nat o) None (repeat 0 (2 * (o * s) - 1)) (repeat 0 (length b - 1)))).
  { unfold channel_init, d, channel_data_init. cbn [chd_zi chd_iir chd_fir chd_pulse_zi chd_span chd_osr chd_pulse chd_rolloff chd_type chd_snr length]. unfold np_zerosR.
    destruct (Z.ltb_spec (Z.of_nat (Nat.max (length b) (length b)) - 1) 0); [lia|]. cbn [bind]. destruct (Z.ltb_spec (Z.of_nat s * Z.of_nat o * 2 - 1) 0); [nia|]. cbn [bind].
    replace (Z.to_nat (Z.of_nat s * Z.of_nat o * 2 - 1)) with (2 * (o * s) - 1)%nat by nia. now replace (Z.to_nat (Z.of_nat (Nat.max (length b) (length b)) - 1)) with (length b - 1)%nat by lia. }
  assert (Us : usable b (AList b) (length b - 1)) by (unfold usable; cbn [coef_list]; split; [assumption|]; split; [assumption|]; split; [assumption|lia]). pose proof (usable_lf _ _ _ Us) as LS.
  assert (G : forall xs pz normal, length pz = (2 * (o * s) - 1)%nat -> Forall (fun x => x <> []) xs -> forall c0, channel_sized c0 o s -> ch_pulse c0 = pulse -> ch_rolloff c0 = beta -> ch_pulse_zi c0 = pz -> ch_type c0 = "pulse"%string ->
    exists cs c' c0', channel_calls (mk_ch pulse (Z.of_nat s) beta "isi_awgn" b (Some b) (Z.of_nat o) None pz (repeat 0 (length b - 1))) xs normal = (c', Ok (returned cs)) /\ channel_calls c0 xs normal = (c0', Ok (returned cs))).
  { clear - Ho Hs HP LS Us. induction xs as [|x xs IH]; intros pz normal Lz F c0 S P R Z T; [exists [], (mk_ch pulse (Z.of_nat s) beta "isi_awgn" b (Some b) (Z.of_nat o) None pz (repeat 0 (length b - 1))), c0; auto|].
    inversion F as [|? ? Nx F']; subst. destruct (call_ok c0 o s x (normal 0%nat) S (or_introl T) Nx) as (p & y & pz & z & E & Lp & Ly & C & S' & H). destruct H as [(_ & -> & ->)|(X & _)]; [|congruence].
    assert (Np : p <> []) by (apply (nonempty_mul x p o); auto).
    cbn [channel_calls]. rewrite C. unfold channel_call at 1. cbn [ch_osr ch_span ch_pulse ch_rolloff ch_pulse_zi]. rewrite E. cbn [ch_with ch_type ch_iir ch_fir ch_snr ch_zi ch_pulse ch_span ch_rolloff ch_osr]. cbn [String.eqb Ascii.eqb Bool.eqb]. unfold awgn_channel. cbn [bind coef_list].
    rewrite (lfilter_proportional 1 b b p) by (auto; intros; ring). cbn [bind fst snd]. replace (map (Rmult 1) p) with p by (rewrite <- (map_id p) at 1; apply map_ext; intros; ring).
    assert (Lpz : length pz = (2 * (o * s) - 1)%nat) by (destruct S' as (_ & _ & _ & _ & _ & L & _); exact L).
    destruct (IH pz (fun i => normal (Datatypes.S i)) Lpz F' (ch_with c0 pz (ch_zi c0)) S' eq_refl eq_refl eq_refl T) as (cs & c' & c0' & D1 & D2). cbn [ch_with ch_pulse ch_rolloff ch_type ch_span ch_osr ch_snr] in *. match goal with |- context [channel_calls (ch_with (ch_with ?u ?v ?w) _ _) _ _] => change (ch_with (ch_with u v w) pz (repeat 0 (length b - 1))) with (mk_ch (ch_pulse c0) (Z.of_nat s) (ch_rolloff c0) "isi_awgn" b (Some b) (Z.of_nat o) None pz (repeat 0 (length b - 1))) end. rewrite D1, D2. exists (p :: cs), c', c0'. split; reflexivity. }
  assert (B : ch_pulse c0 = pulse /\ ch_rolloff c0 = beta).
  { unfold channel_init in I0. cbn in I0. unfold np_zerosR in I0. destruct (_ <? 0)%Z in I0; [discriminate|]. cbn in I0. injection I0 as <-. split; reflexivity. }
  destruct B as (B1 & B2). destruct (G (x :: xs) (repeat 0 (2 * (o * s) - 1)) normal (repeat_length _ _) F c0 S0 B1 B2 Z0 T0) as (cs & c' & c0' & D1 & D2).
  do 5 eexists. split; [exact I|]. split; [exact I0|]. split; eassumption.
Qed.
Print Assumptions C69_iir_ignored_refuted.
(** (Finding.)  IIR coefficients without FIR coefficients: every call raises TypeError.  With a FIR that starts with 0
    (a delay) and has more than one coefficient: every call raises ValueError. *)
Theorem C69_iir_raises_refuted : forall pulse o s fir a beta x g snr, (1 <= o)%nat -> (1 <= s)%nat -> usable_pulse pulse beta -> x <> [] ->
  match fir with None => True | Some b => (2 <= length b)%nat /\ nth 0 b 0 = 0 end ->
  exists c c', channel_init (channel_data_init pulse (Z.of_nat s) "isi_awgn" fir (Some a) beta (Z.of_nat o) snr None None) = Ok c /\
    channel_call c x g = (c', Raise (match fir with None => TypeError | Some _ => ValueError end)).
Proof.
  intros pulse o s fir a beta x g snr Ho Hs HP Nx Hf. unfold channel_init, channel_data_init. cbn [chd_zi chd_iir chd_fir chd_pulse_zi chd_span chd_osr chd_pulse chd_rolloff chd_type chd_snr]. unfold np_zerosR.
  destruct (Z.ltb_spec (Z.of_nat s * Z.of_nat o * 2 - 1) 0); [nia|]. replace (Z.to_nat (Z.of_nat s * Z.of_nat o * 2 - 1)) with (2 * (o * s) - 1)%nat by nia.
  destruct (pulse_ok pulse beta o s x (repeat 0 (2 * (o * s) - 1)) Ho Hs Nx HP (repeat_length _ _)) as (p & pz & P & _).
  destruct fir as [b|].
  - destruct Hf as (Lb & B0). destruct (Z.ltb_spec (Z.of_nat (Nat.max (length b) (length b)) - 1) 0); [lia|]. cbn [bind]. do 2 eexists. split; [reflexivity|]. unfold channel_call. cbn [ch_osr ch_span ch_pulse ch_rolloff ch_pulse_zi]. rewrite P.
    cbn [ch_with ch_type ch_iir ch_fir ch_snr ch_zi]. cbn [String.eqb Ascii.eqb Bool.eqb]. unfold awgn_channel. cbn [bind coef_list].
    replace (lfilter b b p _) with (@Raise (list R * list R) ValueError); [cbn [bind]; reflexivity|]. symmetry. unfold lfilter. destruct b as [|b0 b]; [cbn in Lb; lia|]. cbn [nth] in B0. cbn [length Nat.eqb] in *. destruct (Nat.eqb_spec (length b) 0); [lia|]. destruct (Req_EM_T b0 0); [reflexivity|congruence].
  - cbn [length Nat.max]. cbn [bind]. do 2 eexists. split; [reflexivity|]. unfold channel_call. cbn [ch_osr ch_span ch_pulse ch_rolloff ch_pulse_zi]. rewrite P. reflexivity.
Qed.
Print Assumptions C69_iir_raises_refuted.
(** An unknown channel type is not refused: the call returns None, the pulse memory moves on. *)
Theorem C69_unknown_type : forall c o s x g, channel_sized c o s -> x <> [] -> (ch_type c <> "pulse" /\ ch_type c <> "awgn" /\ ch_type c <> "isi_awgn")%string ->
  exists p pz, pulse_shape x (Z.of_nat o) (Z.of_nat s) (ch_pulse c) (ch_rolloff c) (Some (ch_pulse_zi c)) = Ok (p, pz) /\ channel_call c x g = (ch_with c pz (ch_zi c), Ok None).
Proof.
  intros c o s x g (Ho & Hs & Eo & Es & HP & Lz & _) N (T1 & T2 & T3). destruct (pulse_ok _ _ _ _ _ _ Ho Hs N HP Lz) as (p & pz & P & _). exists p, pz. split; auto. unfold channel_call. rewrite Eo, Es, P. cbn [ch_with ch_type].
  apply String.eqb_neq in T1, T2, T3. now rewrite T1, T2, T3.
Qed.
Print Assumptions C69_unknown_type.
Example C69_case : exists c, channel_init (channel_data_init "rect" 1 "isi_awgn" (Some [0; 2]) None 0.35 2 None None None) = Ok c /\ channel_sized c 2 1 /\ linear_type c /\
  exists c' y, channel_call c [3; -1] (fun _ => 0) = (c', Ok (Some (map Some y))) /\ y = [0; 0; 6; 6] /\ usable_pulse "rect" 0.35.
Proof.
  destruct (C69_init "rect" 2 1 "isi_awgn" (Some [0; 2]) 0.35 None ltac:(lia) ltac:(lia) ltac:(left; reflexivity) ltac:(discriminate)) as (c & I & S & T & N & F & PZ & Z). cbn in F. rewrite F in Z. cbn in PZ, Z.
  exists c. split; auto. split; auto. split; [right; auto|]. assert (E : c = mk_ch "rect" 1 0.35 "isi_awgn" [0; 2] (Some [1]) 2 None [0; 0; 0] [0]) by (cbn in I; now injection I as <-). subst c.
  destruct (C51_rect 2 1 [3; -1] ltac:(lia) ltac:(lia) ltac:(congruence)) as [_ H]. destruct (H 0.35) as (h & p & zo & Eh & E & L & _ & FF & _). injection Eh as <-.
  assert (Ep : p = [0; 3; 3; -1]).
  { pose proof (FF 0%nat ltac:(cbn; lia)) as A0. pose proof (FF 1%nat ltac:(cbn; lia)) as A1. pose proof (FF 2%nat ltac:(cbn; lia)) as A2. pose proof (FF 3%nat ltac:(cbn; lia)) as A3. cbn in L. do 4 (destruct p as [|? p]; [discriminate L|]). destruct p; [|discriminate L]. cbn in A0, A1, A2, A3. congruence. }
  subst p. destruct (C69_call _ 2 1 [3; -1] (fun _ => 0) S (or_intror (conj T N)) ltac:(discriminate)) as (p & pz & y & c' & P & C & Ly & _ & _ & _ & D). destruct (D T) as (a & Ea & Q). injection Ea as <-.
  change (pulse_shape [3; -1] 2 1 "rect" 0.35 None = Ok (p, pz)) in P. change (pulse_shape [3; -1] 2 1 "rect" 0.35 None = Ok ([0; 3; 3; -1], zo)) in E. rewrite E in P. injection P as <- _.
  exists c', y. split; [exact C|]. split; [|left; reflexivity]. destruct Q as (_ & Q). pose proof (Q 0%nat ltac:(cbn; lia)) as A0. pose proof (Q 1%nat ltac:(cbn; lia)) as A1. pose proof (Q 2%nat ltac:(cbn; lia)) as A2. pose proof (Q 3%nat ltac:(cbn; lia)) as A3.
  cbn in Ly. do 4 (destruct y as [|? y]; [discriminate Ly|]). destruct y; [|discriminate Ly]. cbn in A0, A1, A2, A3. repeat f_equal; lra.
Qed.

(** *** C70: the CTLE object *)
(** The memory made by the constructor fits; a memory of another size is refused. *)
Theorem C70_memory : forall zeros poles dc fs osr x, design zeros poles dc fs (IZR osr) -> x <> [] ->
  ctle_sized (ctle_init zeros poles dc fs osr None) /\
  forall z, (length z = Nat.max (length zeros) (length poles) -> exists c y, ctle_call (ctle_init zeros poles dc fs osr (Some z)) x = Ok (Some (c, y)) /\ length y = length x /\ ctle_sized c) /\
            (length z <> Nat.max (length zeros) (length poles) -> ctle_call (ctle_init zeros poles dc fs osr (Some z)) x = Raise ValueError).
Proof.
  intros zeros poles dc fs osr x D Nx. split; [split; [exact D|cbn; apply repeat_length]|]. intros z. split; intros L.
  - apply ctle_once; auto. split; auto.
  - unfold ctle_call, ctle. cbn [ctle_init ct_zeros ct_poles ct_gain ct_fs ct_osr ct_zi]. destruct (design_spec _ _ _ _ _ D) as (b & a & E & Lb & La & _). rewrite E. cbn [bind].
    replace (lfilter b a x z) with (@Raise (list R * list R) ValueError); [reflexivity|]. symmetry. unfold lfilter. destruct a as [|a0 a]; [discriminate|]. rewrite Lb. cbn [Nat.eqb]. assert (zeros <> []) by apply D. assert (0 < length zeros)%nat by (destruct zeros; [congruence|cbn; lia]).
    cbn [length] in La. destruct (Nat.eqb_spec (length a) 0); [lia|]. destruct (Req_EM_T a0 0); auto. replace (length z =? _)%nat with false; [reflexivity|]. symmetry. apply Nat.eqb_neq. cbn [length]. lia.
Qed.
Print Assumptions C70_memory.
(** Any cutting of the signal into chunks gives the output of one call and ends in the same state. *)
Theorem C70_any_chunking : forall c x xs, ctle_sized c -> Forall (fun x => x <> []) (x :: xs) ->
  exists c' ys, ctle_calls c (x :: xs) = Ok (Some (c', ys)) /\ map (@length R) ys = map (@length R) (x :: xs) /\ ctle_call c (concat (x :: xs)) = Ok (Some (c', concat ys)).
Proof. intros c x xs S F. destruct (ctle_calls_concat xs c x S F) as (c' & ys & A & B & _ & D). eauto. Qed.
Print Assumptions C70_any_chunking.
(** Zeros at the frequencies of the poles: every history is only amplified. *)
Theorem C70_matched : forall zeros poles dc fs osr xs, zeros <> [] -> Forall (fun f => f <> 0) zeros -> Permutation zeros poles -> 0 < fs * IZR osr -> 1 / 10 ^ 14 < linear_gain dc -> Forall (fun x => x <> []) xs ->
  let c := ctle_init zeros poles dc fs osr None in ctle_calls c xs = Ok (Some (c, map (map (Rmult (linear_gain dc))) xs)).
Proof.
  intros zeros poles dc fs osr xs Nz Fz P Pos G F c. pose proof (matched_design zeros poles dc fs (IZR osr) Nz Fz P Pos G) as D. destruct (design_spec _ _ _ _ _ D) as (b & a & E & Lb & La & A0 & _).
  pose proof (matched_filter _ _ _ _ _ _ _ D P E) as PR.
  assert (LS : lf_shape b a (Nat.max (length zeros) (length poles))) by (repeat split; [intros ->; discriminate|intros ->; discriminate|lra|lia]).
  induction F as [|x xs Nx F IH]; [reflexivity|]. cbn [ctle_calls]. replace (ctle_call c x) with (@Ok (option (ctle_obj * list R)) (Some (c, map (Rmult (linear_gain dc)) x))).
  - cbn [bind]. rewrite IH. reflexivity.
  - symmetry. unfold ctle_call, ctle. unfold c at 1 2 3 4 5 6. cbn [ctle_init ct_zeros ct_poles ct_gain ct_fs ct_osr ct_zi]. rewrite E. cbn [bind]. rewrite (lfilter_proportional (linear_gain dc) b a x) by auto. reflexivity.
Qed.
Print Assumptions C70_matched.
Example C70_case : Permutation [2; -3] [-3; 2] /\ ctle_sized (ctle_init [2; -3] [-3; 2] 0 1 8 None) /\
  ctle_calls (ctle_init [2; -3] [-3; 2] 0 1 8 None) [[5; 6]; [7]] = Ok (Some (ctle_init [2; -3] [-3; 2] 0 1 8 None, [[5; 6]; [7]])).
Proof.
  assert (P : Permutation [2; -3] [-3; 2]) by constructor. assert (G : linear_gain 0 = 1) by (unfold linear_gain; replace (0 / 20) with 0 by field; apply Rpower_O; lra).
  assert (Fz : Forall (fun f => f <> 0) [2; -3]) by (repeat constructor; lra). assert (L : 1 / 10 ^ 14 < linear_gain 0) by (rewrite G; lra). assert (Pos : 0 < 1 * IZR 8) by lra.
  split; auto. split; [split; [now apply matched_design|reflexivity]|]. rewrite C70_matched by (auto; try discriminate; repeat constructor; discriminate). rewrite G. cbn [map]. repeat f_equal; ring.
Qed.
Example C69_noise_case : exists c, channel_init (channel_data_init "sinc" 2 "awgn" None None 0 4 (Some 20) None None) = Ok c /\ channel_sized c 4 2 /\ ch_snr c = Some 20 /\ ch_type c = "awgn"%string /\
  usable_pulse "sinc" 0 /\ nth 0 [1; 2] 0 <> 0 /\ (2 <= length [0; 3]%R)%nat /\ nth 0 [0; 3] 0 = 0.
Proof.
  destruct (C69_init "sinc" 4 2 "awgn" None 0 (Some 20) ltac:(lia) ltac:(lia) ltac:(right; left; reflexivity) ltac:(discriminate)) as (c & I & S & T & N & _).
  exists c. repeat split; auto; cbn; try lra; try lia; try apply S. right; left; reflexivity.
Qed.
