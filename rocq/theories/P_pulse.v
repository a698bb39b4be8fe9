(** Lemmas for C50-C52, C57, C62: pulses, pulse shaping, noise power. *)
From Coq Require Import Reals Lra Lia String.
From Verif Require Import Py B_list M_aux P_aux M_delay P_delay M_soft M_channel S_channel P_channel.
Import List.
Open Scope R_scope.
Ltac Zify.zify_post_hook ::= Z.div_mod_to_equations.

Lemma time_vec_length o s : length (time_vec_pulse (Z.of_nat o) (Z.of_nat s)) = (2 * (o * s))%nat.
Proof. unfold time_vec_pulse. rewrite !map_length, seq_length. replace (Z.of_nat o * 2 * Z.of_nat s)%Z with (2 * (Z.of_nat o * Z.of_nat s))%Z by ring. rewrite Z.mul_comm, Z.div_mul by lia. lia. Qed.
Lemma time_vec_nth o s k d : (k < 2 * (o * s))%nat -> nth k (time_vec_pulse (Z.of_nat o) (Z.of_nat s)) d = IZR (Z.of_nat k - Z.of_nat (o * s)) / IZR (Z.of_nat o).
Proof.
  intros H. unfold time_vec_pulse. rewrite map_map. replace (Z.of_nat o * 2 * Z.of_nat s)%Z with ((Z.of_nat o * Z.of_nat s) * 2)%Z by ring. rewrite Z.div_mul by lia.
  rewrite nth_map_seq by lia. cbn [Nat.add]. do 2 f_equal. lia.
Qed.
(** The pulses as functions of time. *)
Inductive shape (pulse : string) (beta : R) : (R -> R) -> Prop :=
| shape_rect : pulse = "rect"%string -> shape pulse beta rect_at
| shape_sinc : pulse = "sinc"%string -> shape pulse beta sinc
| shape_rcos : pulse = "rcos"%string -> beta <> 0 -> shape pulse beta (rcos_at beta)
| shape_rrc : pulse = "rrc"%string -> beta <> 0 -> shape pulse beta (rrc_at beta).
Lemma get_pulse_shape pulse beta p osr span t : shape pulse beta p -> get_pulse pulse osr span beta t = Ok (map p (time_or osr span t)).
Proof. intros [-> | -> | -> B | -> B]; unfold get_pulse; cbn [String.eqb Ascii.eqb Bool.eqb]; auto; unfold rcos_pulse, rrc_pulse; destruct (Req_EM_T beta 0); congruence. Qed.
Lemma concat_block_length (x : list R) o : (1 <= o)%nat -> length (concat (map (fun v => v :: repeat 0 (o - 1)) x)) = (length x * o)%nat.
Proof. intros H. induction x as [|v x IH]; cbn [map concat length]; auto. rewrite app_length, IH. cbn [length]. rewrite repeat_length. lia. Qed.
Lemma conv_zeros b m : forall n, conv_at b (repeat 0 m) n = 0.
Proof. induction m as [|m IH]; intros n; cbn [repeat]; [apply conv_nil|]. destruct n; [rewrite conv_first; ring|rewrite conv_cons, IH; ring]. Qed.
Lemma conv_ups p x o : (1 <= o)%nat -> forall n, conv_at p (concat (map (fun v => v :: repeat 0 (o - 1)) x)) n =
  sum_upto (fun i => (if (i * o <=? n)%nat then nth (n - i * o) p 0 else 0) * nth i x 0) (length x).
Proof.
  intros Ho. induction x as [|v x IH]; intros n; cbn [map concat length]; [apply conv_nil|]. rewrite conv_app, sum_upto_S.
  replace (length (v :: repeat 0 (o - 1))) with o by (cbn [length]; rewrite repeat_length; lia). replace (0 * o <=? n)%nat with true by reflexivity. cbn [nth Nat.mul].
  rewrite Nat.sub_0_r. f_equal.
  - destruct n as [|n]; [apply conv_first|]. rewrite conv_cons, conv_zeros. ring.
  - destruct (Nat.leb_spec o n) as [H|H].
    + rewrite IH. apply sum_upto_ext. intros i _. replace (o + i * o <=? n)%nat with (i * o <=? n - o)%nat.
      * destruct (i * o <=? n - o)%nat; [|ring]. do 2 f_equal. lia.
      * destruct (Nat.leb_spec (i * o) (n - o)), (Nat.leb_spec (o + i * o) n); lia.
    + symmetry. apply sum_upto_0. intros i _. replace (o + i * o <=? n)%nat with false by (symmetry; apply Nat.leb_gt; lia). ring.
Qed.
(** pulse_shape without memory: superposition of shifted pulses. *)
Definition pulse_sum (p : R -> R) (x : list R) (o s n : nat) : R :=
  sum_upto (fun i => (if ((i * o <=? n) && (n - i * o <? 2 * (o * s)))%nat then p (IZR (Z.of_nat n - Z.of_nat (i * o) - Z.of_nat (o * s)) / IZR (Z.of_nat o)) else 0) * nth i x 0) (length x).
Lemma pulse_shape_lfilter x o s pulse beta p z : (1 <= o)%nat -> (1 <= s)%nat -> shape pulse beta p -> length z = (2 * (o * s) - 1)%nat ->
  pulse_shape x (Z.of_nat o) (Z.of_nat s) pulse beta (Some z) =
  lfilter (map p (time_vec_pulse (Z.of_nat o) (Z.of_nat s))) [1] (concat (map (fun v => v :: repeat 0 (o - 1)) x)) z.
Proof.
  intros Ho Hs Sh Lz. unfold pulse_shape. rewrite upsample_char by auto. cbn [bind]. rewrite (get_pulse_shape _ _ p) by auto. cbn [bind time_or].
  replace (Z.of_nat (length z) =? _)%Z with true; [reflexivity|]. symmetry. apply Z.eqb_eq. rewrite Lz. assert (1 <= o * s)%nat by nia. rewrite Nat2Z.inj_sub, !Nat2Z.inj_mul by lia. lia.
Qed.
Lemma pulse_shape_none x o s pulse beta : (1 <= o)%nat -> (1 <= s)%nat ->
  pulse_shape x (Z.of_nat o) (Z.of_nat s) pulse beta None = pulse_shape x (Z.of_nat o) (Z.of_nat s) pulse beta (Some (repeat 0 (2 * (o * s) - 1))).
Proof.
  intros Ho Hs. unfold pulse_shape. destruct (upsample _ _ _); cbn [bind]; auto. destruct (get_pulse _ _ _ _ _); cbn [bind]; auto.
  assert (1 <= o * s)%nat by nia. assert (E : (Z.of_nat o * Z.of_nat s * 2 - 1)%Z = Z.of_nat (2 * (o * s) - 1)) by (rewrite Nat2Z.inj_sub, !Nat2Z.inj_mul by lia; lia).
  rewrite E, repeat_length, Z.eqb_refl, Nat2Z.id. replace (_ <? 0)%Z with false by (symmetry; apply Z.ltb_ge; lia). reflexivity.
Qed.
Lemma lf_pulse p o s : (1 <= o)%nat -> (1 <= s)%nat -> lf_shape (map p (time_vec_pulse (Z.of_nat o) (Z.of_nat s))) [1] (2 * (o * s) - 1).
Proof.
  intros Ho Hs. assert (1 <= o * s)%nat by nia. assert (L : length (map p (time_vec_pulse (Z.of_nat o) (Z.of_nat s))) = (2 * (o * s))%nat) by (rewrite map_length; apply time_vec_length).
  split; [congruence|]. split; [intros E; rewrite E in L; cbn [length] in L; lia|]. split; [cbn; lra|]. rewrite L. cbn [length]. lia.
Qed.
Lemma pulse_shape_spec x o s pulse beta p z : (1 <= o)%nat -> (1 <= s)%nat -> shape pulse beta p -> x <> [] -> length z = (2 * (o * s) - 1)%nat ->
  exists y zo, pulse_shape x (Z.of_nat o) (Z.of_nat s) pulse beta (Some z) = Ok (y, zo) /\ length y = (length x * o)%nat /\ length zo = (2 * (o * s) - 1)%nat /\
    (forall n, (n < length x * o)%nat -> nth n y 0 = nth n z 0 + pulse_sum p x o s n) /\
    (forall j, (j < 2 * (o * s) - 1)%nat -> nth j zo 0 = nth (length x * o + j) z 0 + pulse_sum p x o s (length x * o + j)).
Proof.
  intros Ho Hs Sh Nx Lz. rewrite (pulse_shape_lfilter _ _ _ _ _ p) by auto.
  pose proof (lf_pulse p o s Ho Hs) as LS. rewrite <- Lz in LS.
  destruct (lfilter_spec _ [1] (concat (map (fun v => v :: repeat 0 (o - 1)) x)) z LS) as (y & zo & E & L1 & L2 & F & G).
  { intros X. apply (f_equal (@length R)) in X. rewrite concat_block_length in X by auto. destruct x; [congruence|]. cbn [length] in X. lia. }
  rewrite concat_block_length in * by auto. exists y, zo. split; [exact E|]. split; auto. split; [lia|].
  assert (C : forall n, conv_at (map p (time_vec_pulse (Z.of_nat o) (Z.of_nat s))) (concat (map (fun v => v :: repeat 0 (o - 1)) x)) n = pulse_sum p x o s n).
  { intros n. rewrite conv_ups by auto. apply sum_upto_ext. intros i _. f_equal. destruct (Nat.leb_spec (i * o) n) as [H|H]; cbn [andb]; auto.
    destruct (Nat.ltb_spec (n - i * o) (2 * (o * s))) as [H1|H1].
    - rewrite (map_nth_lt _ _ _ 0) by (rewrite time_vec_length; auto). rewrite time_vec_nth by auto. do 3 f_equal. lia.
    - apply nth_overflow. rewrite map_length, time_vec_length. auto. }
  assert (F0 : forall y n, conv_at (fb [1]) y n = 0).
  { intros y0 n. rewrite conv_upto. apply sum_upto_0. intros k _. unfold fb. cbn [tl]. destruct k as [|[|k]]; cbn [nth]; ring. }
  split.
  - intros n Hn. rewrite F by auto. rewrite C, F0. cbn [nth]. field.
  - intros j Hj. rewrite G by lia. rewrite C, F0. cbn [nth]. field.
Qed.

(** * Nyquist pulses *)
Lemma sinc_even t : sinc (- t) = sinc t.
Proof.
  unfold sinc. destruct (Req_EM_T (- t) 0), (Req_EM_T t 0); try lra. replace (PI * - t) with (- (PI * t)) by ring. rewrite sin_neg. pose proof PI_RGT_0. field. split; auto; lra.
Qed.
Lemma rcos_int beta z : beta <> 0 -> z <> 0%Z -> rcos_at beta (IZR z) = 0.
Proof.
  intros B Z. unfold rcos_at. destruct (Req_EM_T _ 1) as [E|E].
  - assert (S : sinc (1 / (2 * beta)) = 0); [|rewrite S; ring]. unfold Rabs in E. destruct (Rcase_abs _).
    + replace (1 / (2 * beta)) with (- IZR z) by (apply (Rmult_eq_reg_l (2 * beta)); [field_simplify; lra|lra]). rewrite sinc_even. now apply sinc_int.
    + replace (1 / (2 * beta)) with (IZR z) by (apply (Rmult_eq_reg_l (2 * beta)); [field_simplify; lra|lra]). now apply sinc_int.
  - rewrite sinc_int by auto. unfold Rdiv. ring.
Qed.
Lemma rcos_0 beta : rcos_at beta 0 = 1.
Proof.
  unfold rcos_at. rewrite !Rmult_0_r, Rabs_R0. destruct (Req_EM_T 0 1) as [E|E]; [lra|]. rewrite sinc_0, cos_0. field.
Qed.
Lemma nyquist_sum p x o s j : (1 <= o)%nat -> (1 <= s)%nat -> p 0 = 1 -> (forall z, z <> 0%Z -> p (IZR z) = 0) -> (j < length x)%nat ->
  pulse_sum p x o s (o * s + j * o) = nth j x 0.
Proof.
  intros Ho Hs P0 Pz Hj. unfold pulse_sum. assert (O : IZR (Z.of_nat o) <> 0) by (apply not_0_IZR; lia). rewrite (sum_upto_single _ _ j); auto.
  - replace ((j * o <=? o * s + j * o) && (o * s + j * o - j * o <? 2 * (o * s)))%nat with true by (symmetry; apply andb_true_intro; split; [apply Nat.leb_le|apply Nat.ltb_lt]; nia).
    replace (Z.of_nat (o * s + j * o) - Z.of_nat (j * o) - Z.of_nat (o * s))%Z with 0%Z by lia. replace (0 / IZR (Z.of_nat o)) with 0 by (field; auto). rewrite P0. ring.
  - intros i _ Ni. destruct (_ && _)%bool; [|ring]. replace (Z.of_nat (o * s + j * o) - Z.of_nat (i * o) - Z.of_nat (o * s))%Z with ((Z.of_nat j - Z.of_nat i) * Z.of_nat o)%Z by nia.
    rewrite mult_IZR. replace (IZR (Z.of_nat j - Z.of_nat i) * IZR (Z.of_nat o) / IZR (Z.of_nat o)) with (IZR (Z.of_nat j - Z.of_nat i)) by (field; auto). rewrite Pz by lia. ring.
Qed.
(** * Rectangular pulse *)
Lemma half_bounds o : (2 * (o / 2) <= o < 2 * (o / 2) + 2)%nat.
Proof. pose proof (Nat.div_mod o 2 ltac:(lia)). pose proof (Nat.mod_upper_bound o 2 ltac:(lia)). lia. Qed.
Lemma rect_int o k : (1 <= o)%nat -> rect_at (IZR k / IZR (Z.of_nat o)) = if ((- Z.of_nat (o / 2) <=? k) && (k <? Z.of_nat o - Z.of_nat (o / 2)))%Z then 1 else 0.
Proof.
  intros Ho. pose proof (half_bounds o) as HB. assert (O : 0 < IZR (Z.of_nat o)) by (apply IZR_lt; lia).
  assert (A : forall r, IZR k / IZR (Z.of_nat o) < r <-> IZR k < r * IZR (Z.of_nat o)).
  { intros r. split; intros H; [apply (Rmult_lt_compat_r _ _ _ O) in H; unfold Rdiv in H; rewrite Rmult_assoc, Rinv_l in H; lra|].
    apply (Rmult_lt_reg_r (IZR (Z.of_nat o))); auto. unfold Rdiv. rewrite Rmult_assoc, Rinv_l; lra. }
  pose proof (A 0.5) as A1. pose proof (A (-0.5)) as A2. unfold rect_at.
  assert (U : IZR k < 0.5 * IZR (Z.of_nat o) <-> (2 * k < Z.of_nat o)%Z).
  { split; intros H; [apply lt_IZR; rewrite mult_IZR; lra|apply IZR_lt in H; rewrite mult_IZR in H; lra]. }
  assert (V : IZR k < -0.5 * IZR (Z.of_nat o) <-> (2 * k < - Z.of_nat o)%Z).
  { split; intros H; [apply lt_IZR; rewrite mult_IZR, opp_IZR; lra|apply IZR_lt in H; rewrite mult_IZR, opp_IZR in H; lra]. }
  destruct (Rlt_dec _ 0.5) as [L|L]; [destruct (Rle_dec (-0.5) _) as [M|M]|].
  - apply A1, U in L. assert (~ (2 * k < - Z.of_nat o)%Z) by (rewrite <- V, <- A2; lra).
    replace (_ && _)%bool with true; auto. symmetry. apply andb_true_intro. split; [apply Z.leb_le|apply Z.ltb_lt]; lia.
  - apply Rnot_le_lt in M. apply A2, V in M. replace (- Z.of_nat (o / 2) <=? k)%Z with false by (symmetry; apply Z.leb_gt; lia). reflexivity.
  - rewrite A1, U in L. replace (k <? Z.of_nat o - Z.of_nat (o / 2))%Z with false by (symmetry; apply Z.ltb_ge; lia). now rewrite Bool.andb_false_r.
Qed.
Lemma rect_sum x o s n : (1 <= o)%nat -> (1 <= s)%nat ->
  pulse_sum rect_at x o s n = if (n <? o * s - o / 2)%nat then 0 else nth ((n - (o * s - o / 2)) / o) x 0.
Proof.
  intros Ho Hs. pose proof (half_bounds o) as HB. assert (Os : (o <= o * s)%nat) by nia. unfold pulse_sum. set (D := (o * s - o / 2)%nat).
  assert (T : forall i, (if ((i * o <=? n) && (n - i * o <? 2 * (o * s)))%nat then rect_at (IZR (Z.of_nat n - Z.of_nat (i * o) - Z.of_nat (o * s)) / IZR (Z.of_nat o)) else 0) =
                        if ((D + i * o <=? n) && (n <? D + i * o + o))%nat then 1 else 0).
  { intros i. rewrite rect_int by auto. assert (o / 2 <= o)%nat by lia.
    destruct (Nat.leb_spec (i * o) n), (Nat.ltb_spec (n - i * o) (2 * (o * s))), (Nat.leb_spec (D + i * o) n), (Nat.ltb_spec n (D + i * o + o)),
      (Z.leb_spec (- Z.of_nat (o / 2)) (Z.of_nat n - Z.of_nat (i * o) - Z.of_nat (o * s))), (Z.ltb_spec (Z.of_nat n - Z.of_nat (i * o) - Z.of_nat (o * s)) (Z.of_nat o - Z.of_nat (o / 2))); cbn [andb]; auto; unfold D in *; lia. }
  rewrite (sum_upto_ext _ (fun i => (if ((D + i * o <=? n) && (n <? D + i * o + o))%nat then 1 else 0) * nth i x 0)) by (intros; now rewrite T).
  destruct (Nat.ltb_spec n D) as [H|H].
  - apply sum_upto_0. intros i _. replace (D + i * o <=? n)%nat with false by (symmetry; apply Nat.leb_gt; lia). cbn [andb]. ring.
  - set (m := ((n - D) / o)%nat). assert (Hm : (m * o <= n - D < m * o + o)%nat).
    { unfold m. pose proof (Nat.div_mod (n - D) o ltac:(lia)). pose proof (Nat.mod_upper_bound (n - D) o ltac:(lia)). nia. }
    destruct (Nat.lt_ge_cases m (length x)) as [H1|H1].
    + rewrite (sum_upto_single _ _ m); auto.
      * replace ((D + m * o <=? n) && (n <? D + m * o + o))%nat with true by (symmetry; apply andb_true_intro; split; [apply Nat.leb_le|apply Nat.ltb_lt]; lia). ring.
      * intros i _ Ni. replace ((D + i * o <=? n) && (n <? D + i * o + o))%nat with false; [ring|]. symmetry. apply Bool.andb_false_iff.
        destruct (Nat.lt_ge_cases i m); [right; apply Nat.ltb_ge; nia|left; apply Nat.leb_gt; nia].
    + rewrite nth_overflow by lia. apply sum_upto_0. intros i Hi. replace (n <? D + i * o + o)%nat with false by (symmetry; apply Nat.ltb_ge; nia). rewrite Bool.andb_false_r. ring.
Qed.
