(** C50-C52, C57, C62: pulse shaping and channel. *)
From Coq Require Import Reals Lra Lia String.
From Verif Require Import Py B_list M_aux S_aux P_aux M_delay P_delay M_soft M_channel S_channel P_channel P_pulse P_limits.
Import List.
Open Scope R_scope.

(** C50: the pulse is 1 at its centre and 0 at every other multiple of osr. *)
Theorem C50_pulse_zeros : forall pulse beta o s, nyquist pulse beta -> (1 <= o)%nat -> (1 <= s)%nat ->
  exists p, get_pulse pulse (Z.of_nat o) (Z.of_nat s) beta None = Ok p /\ length p = (2 * (o * s))%nat /\
    nth (s * o) p 0 = 1 /\ forall k, (k < 2 * s)%nat -> k <> s -> nth (k * o) p 0 = 0.
Proof.
  assert (G : forall f pulse beta o s, shape pulse beta f -> f 0 = 1 -> (forall z, z <> 0%Z -> f (IZR z) = 0) -> (1 <= o)%nat -> (1 <= s)%nat ->
    exists p, get_pulse pulse (Z.of_nat o) (Z.of_nat s) beta None = Ok p /\ length p = (2 * (o * s))%nat /\ nth (s * o) p 0 = 1 /\ forall k, (k < 2 * s)%nat -> k <> s -> nth (k * o) p 0 = 0).
  { intros f pulse beta o s Sh F0 Fz Ho Hs. eexists. split; [apply get_pulse_shape; eassumption|]. cbn [time_or]. rewrite map_length, time_vec_length. split; auto.
    assert (O : IZR (Z.of_nat o) <> 0) by (apply not_0_IZR; lia).
    assert (E : forall k, (k < 2 * s)%nat -> nth (k * o) (map f (time_vec_pulse (Z.of_nat o) (Z.of_nat s))) 0 = f (IZR (Z.of_nat k - Z.of_nat s))).
    { intros k Hk. rewrite (map_nth_lt _ _ _ 0) by (rewrite time_vec_length; nia). rewrite time_vec_nth by nia. f_equal.
      replace (Z.of_nat (k * o) - Z.of_nat (o * s))%Z with ((Z.of_nat k - Z.of_nat s) * Z.of_nat o)%Z by nia. rewrite mult_IZR. field. auto. }
    split; [rewrite E by lia; now rewrite Z.sub_diag|]. intros k Hk Nk. rewrite E by auto. apply Fz. lia. }
  intros pulse beta o s [->|[-> B]] Ho Hs.
  - apply (G sinc); auto; [now constructor|apply sinc_0|apply sinc_int].
  - apply (G (rcos_at beta)); auto; [now constructor|apply rcos_0|intros; now apply rcos_int].
Qed.
Print Assumptions C50_pulse_zeros.
(** Sampling every osr samples from osr*span on returns the symbols; the last [span] symbols are still in the memory. *)
Theorem C50_no_isi : forall pulse beta o s x, nyquist pulse beta -> (1 <= o)%nat -> (1 <= s)%nat -> x <> [] ->
  exists y zo, pulse_shape x (Z.of_nat o) (Z.of_nat s) pulse beta None = Ok (y, zo) /\ length y = (length x * o)%nat /\
    forall j, (j < length x)%nat ->
      (if (s + j <? length x)%nat then nth ((s + j) * o) y 0 else nth ((s + j - length x) * o) zo 0) = nth j x 0.
Proof.
  assert (G : forall f pulse beta o s x, shape pulse beta f -> f 0 = 1 -> (forall z, z <> 0%Z -> f (IZR z) = 0) -> (1 <= o)%nat -> (1 <= s)%nat -> x <> [] ->
    exists y zo, pulse_shape x (Z.of_nat o) (Z.of_nat s) pulse beta None = Ok (y, zo) /\ length y = (length x * o)%nat /\
    forall j, (j < length x)%nat -> (if (s + j <? length x)%nat then nth ((s + j) * o) y 0 else nth ((s + j - length x) * o) zo 0) = nth j x 0).
  { intros f pulse beta o s x Sh F0 Fz Ho Hs Nx. rewrite pulse_shape_none by auto.
    assert (OS : (1 <= o * s)%nat) by nia.
    destruct (pulse_shape_spec x o s pulse beta f (repeat 0 (2 * (o * s) - 1)) Ho Hs Sh Nx) as (y & zo & E & L1 & L2 & F & H); [apply repeat_length|].
    exists y, zo. split; [exact E|]. split; auto. intros j Hj.
    assert (R : forall k, nth k (repeat 0 (2 * (o * s) - 1)) 0 = 0) by (intros k; destruct (Nat.lt_ge_cases k (2 * (o * s) - 1)); [now apply repeat_nth|apply nth_overflow; rewrite repeat_length; lia]).
    destruct (Nat.ltb_spec (s + j) (length x)) as [K|K].
    - rewrite F by nia. rewrite R. replace ((s + j) * o)%nat with (o * s + j * o)%nat by ring. rewrite nyquist_sum by auto. ring.
    - rewrite H by nia. rewrite R. replace (length x * o + (s + j - length x) * o)%nat with (o * s + j * o)%nat by nia. rewrite nyquist_sum by auto. ring. }
  intros pulse beta o s x [->|[-> B]] Ho Hs Nx.
  - apply (G sinc); auto; [now constructor|apply sinc_0|apply sinc_int].
  - apply (G (rcos_at beta)); auto; [now constructor|apply rcos_0|intros; now apply rcos_int].
Qed.
Print Assumptions C50_no_isi.
Example C50_case : nyquist "rcos" 0.5 /\ exists y zo, pulse_shape [3; -1; 1] 2 1 "rcos" 0.5 None = Ok (y, zo) /\ nth 2 y 0 = 3 /\ nth 4 y 0 = -1 /\ nth 0 zo 0 = 1.
Proof.
  assert (N : nyquist "rcos" 0.5) by (right; split; auto; lra). split; auto.
  destruct (C50_no_isi "rcos" 0.5 2 1 [3; -1; 1] N ltac:(lia) ltac:(lia) ltac:(congruence)) as (y & zo & E & _ & H). exists y, zo. split; [exact E|].
  split; [exact (H 0%nat ltac:(cbn; lia))|]. split; [exact (H 1%nat ltac:(cbn; lia))|exact (H 2%nat ltac:(cbn; lia))].
Qed.

(** C51: the rectangular pulse is 1 on exactly osr samples; shaping is a zero-order hold delayed by osr*span - osr//2. *)
Theorem C51_rect : forall o s x, (1 <= o)%nat -> (1 <= s)%nat -> x <> [] ->
  let D := (o * s - o / 2)%nat in
  (exists p, get_pulse "rect" (Z.of_nat o) (Z.of_nat s) 0 None = Ok p /\ length p = (2 * (o * s))%nat /\ (D + o <= 2 * (o * s))%nat /\
     forall k, (k < 2 * (o * s))%nat -> nth k p 0 = if ((D <=? k) && (k <? D + o))%nat then 1 else 0) /\
  forall beta, exists h y zo, zoh x (Z.of_nat o) = Ok h /\ pulse_shape x (Z.of_nat o) (Z.of_nat s) "rect" beta None = Ok (y, zo) /\
    length y = (length x * o)%nat /\ length zo = (2 * (o * s) - 1)%nat /\
    (forall n, (n < length x * o)%nat -> nth n y 0 = delayed 0 D h n) /\
    (forall j, (j < 2 * (o * s) - 1)%nat -> nth j zo 0 = delayed 0 D h (length x * o + j)).
Proof.
  intros o s x Ho Hs Nx D. pose proof (half_bounds o) as HB. assert (OS : (o <= o * s)%nat) by nia. split.
  - eexists. split; [apply get_pulse_shape; now constructor|]. cbn [time_or]. rewrite map_length, time_vec_length. split; auto. split; [unfold D; lia|]. intros k Hk.
    rewrite (map_nth_lt _ _ _ 0) by (rewrite time_vec_length; lia). rewrite time_vec_nth, rect_int by auto.
    destruct (Nat.leb_spec D k), (Nat.ltb_spec k (D + o)), (Z.leb_spec (- Z.of_nat (o / 2)) (Z.of_nat k - Z.of_nat (o * s))), (Z.ltb_spec (Z.of_nat k - Z.of_nat (o * s)) (Z.of_nat o - Z.of_nat (o / 2))); cbn [andb]; auto; unfold D in *; lia.
  - intros beta. destruct (zoh_spec 0 x o) as (h & Eh & Lh & Hh).
    destruct (pulse_shape_spec x o s "rect" beta rect_at (repeat 0 (2 * (o * s) - 1)) Ho Hs ltac:(now constructor) Nx (repeat_length _ _)) as (y & zo & E & L1 & L2 & F & G).
    exists h, y, zo. split; auto. rewrite pulse_shape_none by auto. split; auto. split; auto. split; auto.
    assert (R : forall k, nth k (repeat 0 (2 * (o * s) - 1)) 0 = 0) by (intros k; destruct (Nat.lt_ge_cases k (2 * (o * s) - 1)); [now apply repeat_nth|apply nth_overflow; rewrite repeat_length; lia]).
    assert (Z : forall n, pulse_sum rect_at x o s n = delayed 0 D h n).
    { intros n. rewrite rect_sum by auto. fold D. unfold delayed. destruct (Nat.ltb_spec n D); auto. destruct (Nat.lt_ge_cases (n - D) (length x * o)) as [K|K].
      - symmetry. apply Hh. auto.
      - rewrite !nth_overflow; auto; [lia|]. apply Nat.div_le_lower_bound; lia. }
    split; [intros n Hn; rewrite F by auto|intros j Hj; rewrite G by auto]; rewrite R, Z; ring.
Qed.
Print Assumptions C51_rect.
(** Refusals.  Findings: 'imp' never works; a roll-off of zero (a legal raised cosine) raises ZeroDivisionError. *)
Theorem C51_errors : forall x osr span beta zi,
  pulse_shape x osr span "imp" beta zi = Raise ValueError /\
  ((1 <= osr)%Z -> pulse_shape x osr span "rcos" 0 zi = Raise ZeroDivisionError /\ pulse_shape x osr span "rrc" 0 zi = Raise ZeroDivisionError) /\
  (forall pulse, (osr < 1)%Z \/ (pulse <> "rect" /\ pulse <> "sinc" /\ pulse <> "rcos" /\ pulse <> "rrc" /\ pulse <> "imp")%string ->
     pulse_shape x osr span pulse beta zi = Raise ValueError) /\
  (forall pulse, (beta <> 0) -> (span < 1)%Z -> pulse_shape x osr span pulse beta zi = Raise ValueError) /\
  (forall pulse z, beta <> 0 -> (Z.of_nat (length z) <> osr * span * 2 - 1)%Z -> pulse_shape x osr span pulse beta (Some z) = Raise ValueError) /\
  (forall pulse, beta <> 0 -> pulse_shape [] osr span pulse beta zi = Raise ValueError).
Proof.
  intros x osr span beta zi.
  assert (UP : forall x, (osr < 1)%Z -> upsample 0 x osr = Raise ValueError) by (intros x0 H; unfold upsample; now rewrite (proj2 (Z.ltb_lt _ _) H)).
  assert (UQ : forall x, (1 <= osr)%Z -> exists u, upsample 0 x osr = Ok u) by (intros x0 H; unfold upsample; rewrite (proj2 (Z.ltb_ge _ _) H); eauto).
  assert (GP : forall pulse, beta <> 0 -> (exists p, get_pulse pulse osr span beta None = Ok p) \/ get_pulse pulse osr span beta None = Raise ValueError).
  { intros pulse B. unfold get_pulse, rcos_pulse, rrc_pulse. destruct (Req_EM_T beta 0); [congruence|]. repeat (destruct (_ =? _)%string; [left; eauto|]). now right. }
  assert (MZ : forall z : list R, (span < 1)%Z -> (1 <= osr)%Z -> (osr * span * 2 - 1 < 0)%Z) by (intros; nia).
  split; [|split; [|split; [|split; [|split]]]].
  - destruct (Z.lt_ge_cases osr 1) as [H|H]; unfold pulse_shape; [now rewrite UP|]. destruct (UQ x H) as (u & ->). cbn [bind]. change (get_pulse "imp" osr span beta None) with (@Ok (list R) [1]). cbn [bind].
    set (m := (osr * span * 2 - 1)%Z). assert (m <> 0)%Z by (unfold m; lia).
    assert (LE : forall z, (Z.of_nat (length z) = m)%Z -> lfilter [1] [1] u z = Raise ValueError).
    { intros z Lz. unfold lfilter. cbn [length Nat.eqb]. replace (length z =? 1 - 1)%nat with false by (symmetry; apply Nat.eqb_neq; lia). reflexivity. }
    destruct zi as [z|].
    + destruct (Z.eqb_spec (Z.of_nat (length z)) m) as [E|E]; cbn [bind]; auto.
    + destruct (Z.ltb_spec m 0); cbn [bind]; auto. apply LE. rewrite repeat_length. lia.
  - intros H. unfold pulse_shape. destruct (UQ x H) as (u & ->). cbn [bind]. unfold get_pulse, rcos_pulse, rrc_pulse. cbn [String.eqb Ascii.eqb Bool.eqb]. destruct (Req_EM_T 0 0); [|lra]. cbn [bind]. auto.
  - intros pulse [H|(N1 & N2 & N3 & N4 & N5)]; unfold pulse_shape; [now rewrite UP|]. apply String.eqb_neq in N1, N2, N3, N4, N5. unfold get_pulse. rewrite N1, N2, N3, N4, N5.
    destruct (Z.lt_ge_cases osr 1) as [H|H]; [now rewrite UP|]. destruct (UQ x H) as (u & ->). reflexivity.
  - intros pulse B H. unfold pulse_shape. destruct (Z.lt_ge_cases osr 1) as [H1|H1]; [now rewrite UP|]. destruct (UQ x H1) as (u & ->). cbn [bind]. destruct (GP pulse B) as [(p & ->)| ->]; auto. cbn [bind].
    specialize (MZ [] H H1). destruct zi as [z|]; [replace (_ =? _)%Z with false by (symmetry; apply Z.eqb_neq; lia)|replace (_ <? _)%Z with true by (symmetry; apply Z.ltb_lt; lia)]; reflexivity.
  - intros pulse z B H. unfold pulse_shape. destruct (Z.lt_ge_cases osr 1) as [H1|H1]; [now rewrite UP|]. destruct (UQ x H1) as (u & ->). cbn [bind]. destruct (GP pulse B) as [(p & ->)| ->]; auto. cbn [bind].
    replace (_ =? _)%Z with false by (symmetry; apply Z.eqb_neq; lia). reflexivity.
  - intros pulse B. unfold pulse_shape. destruct (Z.lt_ge_cases osr 1) as [H1|H1]; [now rewrite UP|]. replace (upsample 0 [] osr) with (@Ok (list R) []) by (unfold upsample; rewrite (proj2 (Z.ltb_ge _ _) H1); reflexivity). cbn [bind].
    destruct (GP pulse B) as [(p & ->)| ->]; auto. cbn [bind]. assert (LE : forall z, lfilter p [1] [] z = Raise ValueError) by (intros z; unfold lfilter; cbn [length Nat.eqb]; destruct (length p =? 0)%nat; auto; destruct (negb _); auto).
    destruct zi as [z|]; [destruct (_ =? _)%Z|destruct (_ <? _)%Z]; cbn [bind]; auto.
Qed.
Print Assumptions C51_errors.
Example C51_case : exists y zo, pulse_shape [3; -1] 2 1 "rect" 0.5 None = Ok (y, zo) /\ length y = 4%nat /\ nth 0 y 0 = 0 /\ nth 1 y 0 = 3 /\ nth 2 y 0 = 3 /\ nth 3 y 0 = -1.
Proof.
  destruct (C51_rect 2 1 [3; -1] ltac:(lia) ltac:(lia) ltac:(congruence)) as [_ H]. destruct (H 0.5) as (h & y & zo & Eh & E & L & _ & F & _). injection Eh as <-. exists y, zo.
  split; [exact E|]. split; [exact L|]. repeat split; rewrite F by (cbn; lia); reflexivity.
Qed.

(** C52: pulse shaping can be streamed, and is linear in signal and memory. *)
Theorem C52_pulse_streaming : forall pulse beta o s u v z, (1 <= o)%nat -> (1 <= s)%nat -> u <> [] -> v <> [] ->
  (pulse = "rect" \/ pulse = "sinc" \/ (beta <> 0 /\ (pulse = "rcos" \/ pulse = "rrc")))%string -> length z = (2 * (o * s) - 1)%nat ->
  exists y1 z1 y2 z2, pulse_shape u (Z.of_nat o) (Z.of_nat s) pulse beta (Some z) = Ok (y1, z1) /\
    pulse_shape v (Z.of_nat o) (Z.of_nat s) pulse beta (Some z1) = Ok (y2, z2) /\
    pulse_shape (u ++ v) (Z.of_nat o) (Z.of_nat s) pulse beta (Some z) = Ok (y1 ++ y2, z2) /\
    pulse_shape u (Z.of_nat o) (Z.of_nat s) pulse beta None = pulse_shape u (Z.of_nat o) (Z.of_nat s) pulse beta (Some (repeat 0 (2 * (o * s) - 1))).
Proof.
  intros pulse beta o s u v z Ho Hs Nu Nv HP Lz.
  assert (SH : exists p, shape pulse beta p). { destruct HP as [->|[->|[B [->| ->]]]]; eexists; [apply shape_rect|apply shape_sinc|apply shape_rcos|apply shape_rrc]; auto. }
  destruct SH as (p & Sh).
  destruct (pulse_shape_spec u o s pulse beta p z Ho Hs Sh Nu Lz) as (y1 & z1 & E1 & _ & L2 & _).
  destruct (pulse_shape_spec v o s pulse beta p z1 Ho Hs Sh Nv L2) as (y2 & z2 & E2 & _).
  exists y1, z1, y2, z2. split; auto. split; auto. split; [|now apply pulse_shape_none].
  rewrite (pulse_shape_lfilter u _ _ _ _ p) in E1 by auto. rewrite (pulse_shape_lfilter v _ _ _ _ p) in E2 by auto. rewrite (pulse_shape_lfilter _ _ _ _ _ p) by auto. rewrite map_app, concat_app. pose proof (lf_pulse p o s Ho Hs) as LS. rewrite <- Lz in LS.
  apply (lfilter_stream _ _ _ _ _ _ z1); auto; intros X; apply (f_equal (@length R)) in X; rewrite concat_block_length in X by auto; [destruct u|destruct v]; try congruence; cbn [length] in X; lia.
Qed.
Print Assumptions C52_pulse_streaming.
Theorem C52_pulse_linear : forall pulse beta o s u v zu zv c d y1 z1 y2 z2, (1 <= o)%nat -> (1 <= s)%nat -> length u = length v -> length zu = length zv ->
  pulse_shape u (Z.of_nat o) (Z.of_nat s) pulse beta (Some zu) = Ok (y1, z1) ->
  pulse_shape v (Z.of_nat o) (Z.of_nat s) pulse beta (Some zv) = Ok (y2, z2) ->
  pulse_shape (combine_lists c u d v) (Z.of_nat o) (Z.of_nat s) pulse beta (Some (combine_lists c zu d zv)) = Ok (combine_lists c y1 d y2, combine_lists c z1 d z2).
Proof.
  intros pulse beta o s u v zu zv c d y1 z1 y2 z2 Ho Hs Lu Lz E1 E2.
  destruct u as [|u0 u']; [exfalso; destruct (Req_dec beta 0) as [->|B]|].
  2:{ destruct (C51_errors [] (Z.of_nat o) (Z.of_nat s) beta (Some zu)) as (_ & _ & _ & _ & _ & H). rewrite H in E1 by auto. discriminate. }
  { (* beta = 0 *) revert E1. unfold pulse_shape. rewrite upsample_char by auto. cbn [bind map concat]. destruct (get_pulse _ _ _ _ _) as [p|e]; [|discriminate]. cbn [bind]. destruct (_ =? _)%Z; [|discriminate]. cbn [bind].
    unfold lfilter. cbn [length Nat.eqb]. destruct (length p =? 0)%nat; [discriminate|]. destruct (negb _); discriminate. }
  set (u := u0 :: u') in *. assert (Nu : u <> []) by (unfold u; congruence). clearbody u.
  revert E1 E2. unfold pulse_shape. rewrite !upsample_char by auto. cbn [bind]. destruct (get_pulse _ _ _ _ _) as [p|e] eqn:EP; [|discriminate]. cbn [bind]. rewrite cl_length, <- Lz.
  destruct (_ =? _)%Z eqn:EZ; [|discriminate]. cbn [bind]. intros E1 E2. apply Z.eqb_eq in EZ.
  assert (LS : lf_shape p [1] (length zu)).
  { revert E1. unfold lfilter. destruct (Nat.eqb_spec (length p) 0) as [|Np]; [discriminate|]. cbn [length Nat.eqb]. destruct (Nat.eqb_spec (length zu) (length p - 1)) as [Lp|]; [|discriminate]. intros _.
    split; [congruence|]. split; [intros ->; cbn in Np; lia|]. split; [cbn; lra|]. cbn [length]. lia. }
  pose proof (lfilter_linear p [1] (concat (map (fun v0 => v0 :: repeat 0 (o - 1)) u)) (concat (map (fun v0 => v0 :: repeat 0 (o - 1)) v)) zu zv c d y1 z1 y2 z2 LS Lz) as LL.
  replace (concat (map (fun v0 => v0 :: repeat 0 (o - 1)) (combine_lists c u d v))) with (combine_lists c (concat (map (fun v0 => v0 :: repeat 0 (o - 1)) u)) d (concat (map (fun v0 => v0 :: repeat 0 (o - 1)) v))).
  - apply LL; auto; [rewrite !concat_block_length by auto; congruence|]. intros X. apply (f_equal (@length R)) in X. rewrite concat_block_length in X by auto. destruct u; [congruence|cbn [length] in X; lia].
  - assert (B : forall x k, nth k (concat (map (fun v0 => v0 :: repeat 0 (o - 1)) x)) 0 = if (k mod o =? 0)%nat then nth (k / o) x 0 else 0).
    { intros x k. destruct (Nat.lt_ge_cases k (length x * o)) as [K|K].
      - destruct (upsample_spec 0 x o Ho) as (w & Ew & _ & Hw). rewrite upsample_char in Ew by auto. injection Ew as <-. now apply Hw.
      - rewrite nth_overflow by (rewrite concat_block_length by auto; lia). rewrite nth_overflow by (apply Nat.div_le_lower_bound; lia). now destruct (_ =? _)%nat. }
    apply (nth_ext_def 0); [rewrite cl_length, !concat_block_length, cl_length by auto; auto|]. intros k _.
    rewrite cl_nth, !B by (rewrite !concat_block_length by auto; congruence). destruct (_ =? _)%nat; [|ring]. now rewrite cl_nth.
Qed.
Print Assumptions C52_pulse_linear.
(** The noise free channel is the difference equation, can be streamed, and is linear. *)
Theorem C52_channel : forall b a u v z g g', usable b a (length z) -> u <> [] -> v <> [] ->
  exists y1 z1 y2 z2, awgn_channel u b a None (Some z) g = Ok (map Some y1, z1) /\ difference_equation b (coef_list a) z u y1 /\ length z1 = length z /\
    awgn_channel v b a None (Some z1) g' = Ok (map Some y2, z2) /\
    awgn_channel (u ++ v) b a None (Some z) g = Ok (map Some (y1 ++ y2), z2) /\ difference_equation b (coef_list a) z (u ++ v) (y1 ++ y2).
Proof.
  intros b a u v z g g' (Nb & Na & A0 & Lz) Nu Nv. assert (LS : lf_shape b (coef_list a) (length z)) by (repeat split; auto).
  assert (DE : forall x y, length y = length x -> (forall n, (n < length x)%nat -> nth n y 0 = nth n z 0 + conv_at b x n / nth 0 (coef_list a) 0 - conv_at (fb (coef_list a)) y n / nth 0 (coef_list a) 0) -> difference_equation b (coef_list a) z x y).
  { intros x y L F. split; auto. intros n Hn. rewrite F at 1 by auto. rewrite conv_upto, fb_conv. field. auto. }
  destruct (lfilter_spec b (coef_list a) u z LS Nu) as (y1 & z1 & E1 & L1 & L2 & F1 & _).
  assert (LS' : lf_shape b (coef_list a) (length z1)) by (now rewrite L2).
  destruct (lfilter_spec b (coef_list a) v z1 LS' Nv) as (y2 & z2 & E2 & L3 & L4 & F2 & _).
  pose proof (lfilter_stream _ _ _ _ _ _ _ _ _ LS Nu Nv E1 E2) as E3.
  assert (Nuv : u ++ v <> []) by (intros X; apply app_eq_nil in X as [-> _]; congruence).
  destruct (lfilter_spec b (coef_list a) (u ++ v) z LS Nuv) as (y3 & z3 & E3' & L5 & L6 & F3 & _). rewrite E3 in E3'. injection E3' as <- <-.
  exists y1, z1, y2, z2. unfold awgn_channel. cbn [bind]. rewrite E1, E2, E3. cbn [bind fst snd]. split; auto. split; [now apply DE|]. split; auto.
Qed.
Print Assumptions C52_channel.
Theorem C52_channel_linear : forall b a u v zu zv c d g y1 z1 y2 z2, usable b a (length zu) -> u <> [] -> length u = length v -> length zu = length zv ->
  awgn_channel u b a None (Some zu) g = Ok (map Some y1, z1) -> awgn_channel v b a None (Some zv) g = Ok (map Some y2, z2) ->
  awgn_channel (combine_lists c u d v) b a None (Some (combine_lists c zu d zv)) g = Ok (map Some (combine_lists c y1 d y2), combine_lists c z1 d z2).
Proof.
  intros b a u v zu zv c d g y1 z1 y2 z2 (Nb & Na & A0 & Lm) Nu Lu Lz. assert (LS : lf_shape b (coef_list a) (length zu)) by (repeat split; auto).
  assert (INJ : forall l l' : list R, map Some l = map Some l' -> l = l') by (induction l as [|q l IH]; intros [|q' l'] E; try discriminate; auto; injection E as -> E; f_equal; auto).
  unfold awgn_channel. cbn [bind]. destruct (lfilter b (coef_list a) u zu) as [[w1 w2]|] eqn:E1; [|discriminate]. destruct (lfilter b (coef_list a) v zv) as [[w3 w4]|] eqn:E2; [|discriminate]. cbn [bind fst snd].
  intros H1 H2. injection H1 as H1 <-. injection H2 as H2 <-. apply INJ in H1, H2. subst. rewrite (lfilter_linear _ _ _ _ _ _ c d _ _ _ _ LS Lz Lu E1 E2 Nu). reflexivity.
Qed.
Print Assumptions C52_channel_linear.
(** Default memory and refusals; finding: a denominator given as a tuple longer than [b] is refused without memory. *)
Theorem C52_channel_memory : forall b a u snr g, b <> [] -> coef_list a <> [] -> nth 0 (coef_list a) 0 <> 0 ->
  ((forall l, a <> ATuple l) -> awgn_channel u b a snr None g = awgn_channel u b a snr (Some (repeat 0 (Nat.max (length (coef_list a)) (length b) - 1))) g) /\
  (forall z, length z <> (Nat.max (length (coef_list a)) (length b) - 1)%nat -> awgn_channel u b a snr (Some z) g = Raise ValueError).
Proof.
  intros b a u snr g Nb Na A0. assert (Hb : length b <> 0%nat) by (destruct b; cbn; [congruence|lia]). split.
  - intros T. unfold awgn_channel. destruct a as [l|l|x]; [|destruct (T l eq_refl)|]; cbn [coef_list length]; (replace (Nat.max _ (length b) =? 0)%nat with false by (symmetry; apply Nat.eqb_neq; lia)); reflexivity.
  - intros z Lz. unfold awgn_channel. cbn [bind]. replace (lfilter b (coef_list a) u z) with (@Raise (list R * list R) ValueError); [reflexivity|]. symmetry. unfold lfilter.
    destruct (coef_list a) as [|a0 al] eqn:EA; [congruence|]. rewrite (proj2 (Nat.eqb_neq _ _) Hb). destruct (Nat.eqb_spec (length al) 0) as [E|E].
    + replace (length z =? length b - 1)%nat with false; [reflexivity|]. symmetry. apply Nat.eqb_neq. cbn [length] in Lz. lia.
    + destruct (Req_EM_T a0 0); auto. replace (length z =? _)%nat with false; [reflexivity|]. symmetry. apply Nat.eqb_neq. cbn [length] in *. lia.
Qed.
Print Assumptions C52_channel_memory.
(** (Finding.)  A denominator given as a tuple longer than the numerator is refused: its length is not taken into account for the default memory. *)
Theorem C52_tuple_refuted : forall b l u snr g, (1 < length l)%nat -> (length b < length l)%nat -> awgn_channel u b (ATuple l) snr None g = Raise ValueError.
Proof.
  intros b l u snr g Hl Hb. unfold awgn_channel. cbn [coef_list]. destruct (Nat.max 1 (length b) =? 0)%nat; [reflexivity|]. cbn [bind].
  replace (lfilter b l u _) with (@Raise (list R * list R) ValueError); [reflexivity|]. symmetry. unfold lfilter. destruct l as [|a0 al]; [cbn in Hl; lia|]. cbn [length] in *.
  destruct (Nat.eqb_spec (length b) 0) as [E0|E0]; auto. replace (length al =? 0)%nat with false by (symmetry; apply Nat.eqb_neq; lia). destruct (Req_EM_T a0 0); auto.
  rewrite repeat_length. replace (Nat.max 1 (length b) - 1 =? _)%nat with false; [reflexivity|]. symmetry. apply Nat.eqb_neq. lia.
Qed.
Print Assumptions C52_tuple_refuted.
Example C52_case : usable [1; 2] (AList [2; 1]) 1 /\ usable [1; 2; 3] (ANumber 4) 2 /\
  awgn_channel [4; 6] [1; 2] (AList [2; 1]) None None (fun _ => 0) = Ok ([Some (0 + 1 / 2 * 4); Some ((0 + 4 * (2 / 2) - (0 + 1 / 2 * 4) * (1 / 2)) + 1 / 2 * 6)], [0 + 6 * (2 / 2) - ((0 + 4 * (2 / 2) - (0 + 1 / 2 * 4) * (1 / 2)) + 1 / 2 * 6) * (1 / 2)]).
Proof.
  split; [repeat split; cbn; try congruence; lra|]. split; [repeat split; cbn; try congruence; lra|].
  unfold awgn_channel, lfilter. cbn. destruct (Req_EM_T 2 0); [lra|]. reflexivity.
Qed.

(** C57: the requested noise power is the power estimate divided by the linear SNR; the estimate is the mean square
    plus a bias between 0 and mean square / (N-1); every output is the input plus std times a normal draw. *)
Theorem C57_noise_power : forall l snr g, (2 <= length l)%nat ->
  let std := noise_std l snr in let n := INR (length l) in
  0 <= std /\ std ^ 2 * Rpower 10 (snr / 10) = mean_square l + pop_variance l / (n - 1) /\
  mean_square l <= std ^ 2 * Rpower 10 (snr / 10) <= mean_square l * (n / (n - 1)) /\
  awgn l snr g = map (fun k => Some (nth k l 0 + std * g k)) (seq 0 (length l)) /\
  (0 < std <-> 0 < mean_square l).
Proof.
  intros l snr g H std n. assert (N : 2 <= n) by (apply (le_INR 2); auto).
  assert (T : 0 < Rpower 10 (snr / 10)) by (unfold Rpower; apply exp_pos).
  pose proof (power_eq l H) as P. fold n in P. assert (V0 : 0 <= pop_variance l) by (apply mean_nonneg; intros; apply Rle_0_sqr).
  assert (M0 : 0 <= mean_square l) by (apply mean_nonneg; intros; apply Rle_0_sqr).
  assert (VM : pop_variance l <= mean_square l) by (rewrite variance_expand by lia; pose proof (Rle_0_sqr (mean_of (fun x => x) l)); unfold Rsqr in *; lra).
  assert (I : 0 < / (n - 1)) by (apply Rinv_0_lt_compat; lra).
  assert (B0 : 0 <= pop_variance l / (n - 1)) by (unfold Rdiv; nra).
  assert (B1 : pop_variance l / (n - 1) <= mean_square l / (n - 1)) by (unfold Rdiv; nra).
  assert (Q : 0 <= sig_power_hat l / Rpower 10 (snr / 10)) by (rewrite P; apply Rmult_le_pos; [lra|left; now apply Rinv_0_lt_compat]).
  assert (S2 : std ^ 2 * Rpower 10 (snr / 10) = sig_power_hat l) by (unfold std, noise_std; rewrite pow2_sqrt by auto; field; lra).
  split; [apply sqrt_pos|]. rewrite S2, P. split; auto. split; [split; [lra|]; replace (mean_square l * (n / (n - 1))) with (mean_square l + mean_square l / (n - 1)) by (field; lra); lra|]. split.
  - unfold awgn. apply map_ext_in. intros k _. replace (length l =? 1)%nat with false by (symmetry; apply Nat.eqb_neq; lia). fold std. f_equal. ring.
  - split; intros X.
    + destruct (Rlt_le_dec 0 (mean_square l)) as [|Y]; auto. exfalso. assert (PV : pop_variance l = 0) by lra. assert (Z : sig_power_hat l = 0) by (rewrite P, PV; unfold Rdiv; rewrite Rmult_0_l; lra). unfold std, noise_std in X. rewrite Z in X. unfold Rdiv in X. rewrite Rmult_0_l, sqrt_0 in X. lra.
    + apply sqrt_lt_R0. rewrite P. apply Rmult_lt_0_compat; [lra|now apply Rinv_0_lt_compat].
Qed.
Print Assumptions C57_noise_power.
(** Without snr the channel adds nothing whatever the generator does; with it, the noise is scaled to the power after
    the channel.  A single sample becomes nan (finding). *)
Theorem C57_channel_noise : forall x b a zi g, 
  (forall g', awgn_channel x b a None zi g = awgn_channel x b a None zi g') /\
  (forall snr, awgn_channel x b a (Some snr) zi g =
     match awgn_channel x b a None zi g with Ok (y, zo) => Ok (awgn (map (fun v => match v with Some r => r | None => 0 end) y) snr g, zo) | Raise e => Raise e end) /\
  (forall v snr, awgn [v] snr g = [None]).
Proof.
  intros x b a zi g. split; [reflexivity|]. split; [|reflexivity]. intros snr. unfold awgn_channel. destruct (match zi with Some z => Ok z | None => _ end); cbn [bind]; auto.
  destruct (lfilter _ _ _ _) as [[y zo]|]; cbn [bind fst snd]; auto. rewrite map_map, map_id. reflexivity.
Qed.
Print Assumptions C57_channel_noise.
Example C57_case : (2 <= length [1; -1; 3]%R)%nat /\ mean_square [1; -1; 3] = 11 / 3 /\ pop_variance [1; -1; 3] = 8 / 3.
Proof. split; [cbn; lia|]. unfold pop_variance, mean_square, mean_of. cbn. split; field. Qed.

(** C62: the values used at removable singularities are the limits: the raised cosine is a continuous pulse, and the
    root raised cosine uses the limits of its formula. *)
Theorem C62_rcos_continuous : forall beta t, beta <> 0 -> continuity_pt (rcos_at beta) t /\
  forall osr span ts, rcos_pulse osr span beta (Some ts) = Ok (map (rcos_at beta) ts).
Proof. intros beta t B. split; [now apply rcos_cont|]. intros. unfold rcos_pulse. destruct (Req_EM_T beta 0); [congruence|reflexivity]. Qed.
Print Assumptions C62_rcos_continuous.
Theorem C62_rrc : forall beta, 0 < beta ->
  exists f, (forall t, t <> 0 -> (4 * beta * t) ^ 2 <> 1 ->
               f t = (4 * beta * cos ((1 + beta) * PI * t) + sin ((1 - beta) * PI * t) / t) / (PI * (1 - (4 * beta * t) ^ 2))) /\
    tends_to f 0 (f 0) /\ (forall t, (4 * beta * t) ^ 2 = 1 -> tends_to f t (f t)) /\
    (forall osr span ts, rrc_pulse osr span beta (Some ts) = Ok (map (rrc_at beta) ts)) /\
    (forall t, (Rabs t > / 100000000 -> Rabs (Rabs t - 1 / (4 * beta)) > / 100000000 -> rrc_at beta t = f t)) /\
    (1 / (4 * beta) > / 100000000 -> rrc_at beta 0 = f 0 /\ rrc_at beta (1 / (4 * beta)) = f (1 / (4 * beta)) /\ rrc_at beta (- (1 / (4 * beta))) = f (1 / (4 * beta))).
Proof.
  intros beta B. pose proof PI_RGT_0 as PP. set (e := 1 / (4 * beta)). assert (E0 : 0 < e) by (unfold e; apply Rdiv_lt_0_compat; lra). assert (E1 : 4 * beta * e = 1) by (unfold e; field; lra).
  set (f := fun t => if Req_EM_T t 0 then rrc_zero beta else if Req_EM_T (Rabs t) e then rrc_edge beta else rrc_else beta t).
  assert (AE : forall t, (4 * beta * t) ^ 2 = 1 <-> Rabs t = e).
  { intros t. split; intros H.
    - replace ((4 * beta * t) ^ 2) with (Rsqr (4 * beta * t)) in H by (unfold Rsqr; ring). replace 1 with (Rsqr 1) in H by (unfold Rsqr; ring). apply Rsqr_eq_abs_0 in H. rewrite Rabs_R1, Rabs_mult, (Rabs_pos_eq (4 * beta)) in H by lra.
      apply (Rmult_eq_reg_l (4 * beta)); lra.
    - replace ((4 * beta * t) ^ 2) with ((4 * beta) ^ 2 * (Rabs t) ^ 2) by (rewrite (pow2_abs t); ring). rewrite H. replace ((4 * beta) ^ 2 * e ^ 2) with ((4 * beta * e) ^ 2) by ring. rewrite E1. ring. }
  assert (EQ : forall t, t <> 0 -> (4 * beta * t) ^ 2 <> 1 -> f t = rrc_else beta t).
  { intros t T U. unfold f. destruct (Req_EM_T t 0); [congruence|]. destruct (Req_EM_T (Rabs t) e) as [Z|Z]; auto. apply AE in Z. congruence. }
  exists f. split; [|split; [|split; [|split; [|split]]]].
  - intros t T U. rewrite EQ by auto. unfold rrc_else. field. repeat split; auto; try lra.
  - replace (f 0) with (rrc_zero beta) by (unfold f; destruct (Req_EM_T 0 0); [reflexivity|lra]). apply (tends_near _ (rrc_else beta) _ _ e E0); [|apply rrc_limit_zero; lra].
    intros t T Dt. rewrite Rminus_0_r in Dt. apply EQ; auto. intros Z. apply AE in Z. lra.
  - intros t0 Z. pose proof Z as Z'. apply AE in Z'. assert (N0 : t0 <> 0) by (intros ->; rewrite Rabs_R0 in Z'; lra).
    replace (f t0) with (rrc_edge beta) by (unfold f; destruct (Req_EM_T t0 0); [congruence|]; destruct (Req_EM_T (Rabs t0) e); [reflexivity|congruence]).
    apply (tends_near _ (rrc_else beta) _ _ e E0).
    + intros t T Dt. apply EQ.
      * intros ->. rewrite Rminus_0_l, Rabs_Ropp in Dt. lra.
      * intros X. apply AE in X. unfold Rabs in X, Dt, Z'. destruct (Rcase_abs t), (Rcase_abs t0), (Rcase_abs (t - t0)); lra.
    + pose proof (rrc_limit_edge beta ltac:(lra)) as L. fold e in L. destruct (Rcase_abs t0) as [Neg|Pos].
      * assert (t0 = - e) by (unfold Rabs in Z'; destruct (Rcase_abs t0); lra). subst t0. intros eps He. destruct (L eps He) as (d & Hd & G). exists (Rmin d e). split; [apply Rmin_glb_lt; auto|]. intros t T Dt.
        assert (Rabs (t - - e) < d) by (eapply Rlt_le_trans; [exact Dt|apply Rmin_l]). assert (Rabs (t - - e) < e) by (eapply Rlt_le_trans; [exact Dt|apply Rmin_r]).
        rewrite <- (rrc_even beta t); [apply G; [lra|]| lra |].
        { replace (- t - e) with (- (t - - e)) by ring. now rewrite Rabs_Ropp. }
        intros ->. unfold Rabs in H0. destruct (Rcase_abs _); lra.
      * assert (t0 = e) by (unfold Rabs in Z'; destruct (Rcase_abs t0); lra). subst t0. exact L.
  - intros osr span ts. unfold rrc_pulse. destruct (Req_EM_T beta 0); [lra|reflexivity].
  - intros t T U. assert (Q : 0 < / 100000000) by (apply Rinv_0_lt_compat; lra). rewrite EQ.
    + unfold rrc_at, close0. fold e. destruct (Rle_dec (Rabs (Rabs t - e)) _); [lra|]. destruct (Rle_dec (Rabs t) _); [lra|reflexivity].
    + intros ->. rewrite Rabs_R0 in T. lra.
    + intros X. apply AE in X. rewrite X, Rminus_diag_eq, Rabs_R0 in U by auto. lra.
  - intros Q. assert (Q0 : 0 < / 100000000) by (apply Rinv_0_lt_compat; lra). unfold rrc_at, close0. fold e. rewrite Rabs_R0, Rabs_Ropp, (Rabs_pos_eq e) by lra. rewrite (Rminus_diag_eq e e), Rabs_R0 by auto.
    assert (FE : f e = rrc_edge beta). { unfold f. destruct (Req_EM_T e 0); [lra|]. rewrite (Rabs_pos_eq e) by lra. destruct (Req_EM_T e e); [reflexivity|congruence]. }
    rewrite FE. rewrite (Rminus_0_l e), Rabs_Ropp, (Rabs_pos_eq e) by lra. destruct (Rle_dec e _); [lra|]. destruct (Rle_dec 0 _); [|lra]. split; auto.
    unfold f. destruct (Req_EM_T 0 0); [reflexivity|lra].
Qed.
Print Assumptions C62_rrc.
Example C62_case : rcos_at 0.5 1 = PI / 4 * sinc (1 / (2 * 0.5)) /\ rrc_at 0.5 0 = 0.5 + 2 / PI.
Proof.
  pose proof PI_RGT_0. split.
  - unfold rcos_at. destruct (Req_EM_T _ 1) as [E|E]; auto. exfalso. apply E. replace (2 * 0.5 * 1) with 1 by lra. apply Rabs_R1.
  - unfold rrc_at, close0. rewrite Rabs_R0. destruct (Rle_dec _ _) as [L|L]; [exfalso; replace (0 - 1 / (4 * 0.5)) with (- (1 / 2)) in L by lra; rewrite Rabs_Ropp, Rabs_pos_eq in L; lra|].
    destruct (Rle_dec 0 _); [|lra]. unfold rrc_zero. replace 0.5 with (/ 2) by lra. field. lra.
Qed.
