(** C73: pulse shaping with random jitter. *)
From Coq Require Import Reals String Lra Lia.
From Verif Require Import Py B_list M_aux S_aux P_aux M_channel S_channel P_channel P_pulse Prop_channel M_jitter S_jitter P_jitter.
Import List.
Open Scope R_scope.

Lemma osr_pos o : (1 <= o)%nat -> 0 < / IZR (Z.of_nat o).
Proof. intros H. apply Rinv_0_lt_compat, IZR_lt. lia. Qed.
Lemma not_close sigma : 1e-8 < Rabs sigma -> close0 sigma = false.
Proof. intros H. unfold close0. destruct (Rle_dec _ _); auto. exfalso. lra. Qed.

Lemma rj_none x o s pulse beta sigma normal : (1 <= o)%nat -> (1 <= s)%nat ->
  pulse_shape_rj x (Z.of_nat o) (Z.of_nat s) pulse beta sigma normal None = pulse_shape_rj x (Z.of_nat o) (Z.of_nat s) pulse beta sigma normal (Some (repeat 0 (2 * (o * s) - 1))).
Proof. intros Ho Hs. unfold pulse_shape_rj. now rewrite pulse_shape_none. Qed.

(** Through four or more equidistant samples there is exactly one cubic spline of the kind described in S_jitter.v. *)
Theorem C73_spline : forall h y, 0 < h -> (4 <= length y)%nat -> exists f, is_spline h y f /\ forall g, is_spline h y g -> forall x, g x = f x.
Proof. intros h y Hh L. exists (cubic_interp h y). split; [apply cubic_is_spline; auto|]. intros g G. apply spline_unique; auto. Qed.
Print Assumptions C73_spline.
(** The parabola is the spline through its samples. *)
Example C73_spline_case : is_spline 1 [0; 1; 4; 9; 16] (fun x => x ^ 2).
Proof.
  split.
  - intros k Hk. do 5 (destruct k as [|k]; [cbn; lra|]). cbn in Hk. lia.
  - exists (fun i => mk_cubic (INR i ^ 2) (2 * INR i) 1 0). repeat split; intros; unfold value, slope, bend; cbn [ca cb cc cd]; try ring. rewrite plus_INR. cbn. ring.
Qed.
(** With jitter every sample of symbol [j] is the value of that spline at its own time plus rj_sigma times the draw for symbol
    [j]; the memory is that of the call without jitter. *)
Theorem C73_value : forall x o span pulse beta sigma normal zi y zo, (1 <= o)%nat -> pulse_shape x (Z.of_nat o) span pulse beta zi = Ok (y, zo) ->
  (4 <= length y)%nat -> 1e-8 < Rabs sigma ->
  exists out, pulse_shape_rj x (Z.of_nat o) span pulse beta sigma normal zi = Ok (out, zo) /\ length out = length y /\
    forall f, is_spline (/ INR o) y f -> forall k, (k < length y)%nat -> nth k out 0 = f (INR k / INR o + sigma * normal (k / o)%nat).
Proof.
  intros x o span pulse beta sigma normal zi y zo Ho E L Sg. unfold pulse_shape_rj. rewrite E. cbn [bind]. rewrite not_close by auto.
  replace (length y <? 4)%nat with false by (symmetry; apply Nat.ltb_ge; auto). eexists. split; [reflexivity|]. split; [rewrite !map_length, seq_length; auto|].
  intros f F k Hk. rewrite map_map. rewrite nth_map_seq by auto. cbn [Nat.add]. rewrite Nat2Z.id. rewrite <- INR_IZR_INZ.
  rewrite (spline_unique (/ INR o) y f) by (auto; rewrite INR_IZR_INZ; apply osr_pos; auto). f_equal. ring.
Qed.
Print Assumptions C73_value.
(** A standard deviation of at most 1e-8 means no jitter; so do draws of zero. *)
Theorem C73_no_jitter : forall x o span pulse beta sigma normal zi, (1 <= o)%nat ->
  (Rabs sigma <= 1e-8 -> pulse_shape_rj x (Z.of_nat o) span pulse beta sigma normal zi = pulse_shape x (Z.of_nat o) span pulse beta zi) /\
  (forall y zo, pulse_shape x (Z.of_nat o) span pulse beta zi = Ok (y, zo) -> (4 <= length y)%nat -> (forall j, normal j = 0) ->
     pulse_shape_rj x (Z.of_nat o) span pulse beta sigma normal zi = Ok (y, zo)).
Proof.
  intros x o span pulse beta sigma normal zi Ho.
  assert (C : Rabs sigma <= 1e-8 -> pulse_shape_rj x (Z.of_nat o) span pulse beta sigma normal zi = pulse_shape x (Z.of_nat o) span pulse beta zi).
  { intros H. unfold pulse_shape_rj. destruct (pulse_shape _ _ _ _ _ _) as [[y zo]|e]; auto. cbn [bind]. unfold close0. destruct (Rle_dec _ _); auto. exfalso. lra. }
  split; auto. intros y zo E L N. destruct (Rle_dec (Rabs sigma) 1e-8) as [H|H]; [rewrite C; auto|].
  destruct (C73_value x o span pulse beta sigma normal zi y zo Ho E L ltac:(lra)) as (out & -> & Lo & V). do 2 f_equal. apply (nth_ext_def 0); auto. rewrite Lo. intros k Hk.
  assert (P : 0 < / INR o) by (rewrite INR_IZR_INZ; apply osr_pos; auto). pose proof (cubic_is_spline (/ INR o) y P L) as S. rewrite (V _ S k Hk), N. destruct S as [S _].
  replace (INR k / INR o + sigma * 0) with (INR k * / INR o) by (unfold Rdiv; ring). auto.
Qed.
Print Assumptions C73_no_jitter.
(** Any of the four pulses and any memory of the right size give something to jitter. *)
Theorem C73_defined : forall x o s pulse beta sigma normal z, (1 <= o)%nat -> (1 <= s)%nat -> x <> [] -> length z = (2 * (o * s) - 1)%nat ->
  (pulse = "rect" \/ pulse = "sinc" \/ (beta <> 0 /\ (pulse = "rcos" \/ pulse = "rrc")))%string -> 1e-8 < Rabs sigma ->
  if (4 <=? length x * o)%nat
  then exists out zo, pulse_shape_rj x (Z.of_nat o) (Z.of_nat s) pulse beta sigma normal (Some z) = Ok (out, zo) /\ length out = (length x * o)%nat /\ length zo = length z
  else pulse_shape_rj x (Z.of_nat o) (Z.of_nat s) pulse beta sigma normal (Some z) = Raise ValueError.
Proof.
  intros x o s pulse beta sigma normal z Ho Hs Nx Lz HP Sg.
  assert (SH : exists p, shape pulse beta p). { destruct HP as [->|[->|[B [->| ->]]]]; eexists; [apply shape_rect|apply shape_sinc|apply shape_rcos|apply shape_rrc]; auto. }
  destruct SH as [p Sh]. destruct (pulse_shape_spec x o s pulse beta p z Ho Hs Sh Nx Lz) as (y & zo & E & L1 & L2 & _). destruct (Nat.leb_spec 4 (length x * o)) as [H|H].
  - destruct (C73_value x o _ pulse beta sigma normal (Some z) y zo Ho E ltac:(lia) Sg) as (out & E' & Lo & _). exists out, zo. repeat split; auto; lia.
  - unfold pulse_shape_rj. rewrite E. cbn [bind]. rewrite not_close by auto. replace (length y <? 4)%nat with true by (symmetry; apply Nat.ltb_lt; lia). reflexivity.
Qed.
Print Assumptions C73_defined.
(** (Finding.) One to three samples are shaped without jitter but refused with jitter, whatever the draws. *)
Theorem C73_short_refuted : ~ forall x beta sigma normal y zo, pulse_shape x 1 1 "rect" beta None = Ok (y, zo) -> exists out, pulse_shape_rj x 1 1 "rect" beta sigma normal None = Ok (out, zo).
Proof.
  intros H. destruct (C51_rect 1 1 [1] (le_n 1) (le_n 1) ltac:(discriminate)) as [_ C]. destruct (C 0) as (h & y & zo & _ & E & _).
  destruct (H [1] 0 1 (fun _ => 0) y zo E) as [out X]. change (pulse_shape_rj [1] (Z.of_nat 1) (Z.of_nat 1) "rect" 0 1 (fun _ => 0) None = Ok (out, zo)) in X. rewrite (rj_none _ 1 1) in X by lia.
  pose proof (C73_defined [1] 1 1 "rect" 0 1 (fun _ => 0) (repeat 0 (2 * (1 * 1) - 1)) (le_n 1) (le_n 1) ltac:(discriminate) eq_refl ltac:(auto) ltac:(rewrite Rabs_R1; lra)) as D.
  change (4 <=? length [1] * 1)%nat with false in D. cbv iota in D. rewrite D in X. discriminate.
Qed.
Print Assumptions C73_short_refuted.
(** A displacement by a whole number of samples which stays inside the signal reads that sample: positive draws read later ones. *)
Theorem C73_whole_samples : forall x o span pulse beta sigma normal zi y zo out k m, (1 <= o)%nat -> pulse_shape x (Z.of_nat o) span pulse beta zi = Ok (y, zo) ->
  (4 <= length y)%nat -> 1e-8 < Rabs sigma -> pulse_shape_rj x (Z.of_nat o) span pulse beta sigma normal zi = Ok (out, zo) ->
  (k < length y)%nat -> sigma * normal (k / o)%nat = IZR m / INR o -> (0 <= Z.of_nat k + m < Z.of_nat (length y))%Z -> nth k out 0 = nth (Z.to_nat (Z.of_nat k + m)) y 0.
Proof.
  intros x o span pulse beta sigma normal zi y zo out k m Ho E L Sg E' Hk Em Hm. destruct (C73_value x o span pulse beta sigma normal zi y zo Ho E L Sg) as (out' & E2 & _ & V). rewrite E2 in E'. injection E' as ->.
  assert (P : 0 < / INR o) by (rewrite INR_IZR_INZ; apply osr_pos; auto). pose proof (cubic_is_spline (/ INR o) y P L) as S. rewrite (V _ S k Hk), Em. destruct S as [S _]. rewrite <- S by lia. f_equal.
  rewrite (INR_IZR_INZ (Z.to_nat _)), Z2Nat.id, plus_IZR, <- INR_IZR_INZ by lia. unfold Rdiv. ring.
Qed.
Print Assumptions C73_whole_samples.
(** Where the shaped signal follows a polynomial of degree at most three, the jittered one follows it exactly, beyond the ends too. *)
Theorem C73_cubic : forall x o span pulse beta sigma normal zi y zo out p, (1 <= o)%nat -> pulse_shape x (Z.of_nat o) span pulse beta zi = Ok (y, zo) ->
  (4 <= length y)%nat -> 1e-8 < Rabs sigma -> pulse_shape_rj x (Z.of_nat o) span pulse beta sigma normal zi = Ok (out, zo) ->
  (forall k, (k < length y)%nat -> nth k y 0 = value p (INR k / INR o)) ->
  forall k, (k < length y)%nat -> nth k out 0 = value p (INR k / INR o + sigma * normal (k / o)%nat).
Proof.
  intros x o span pulse beta sigma normal zi y zo out p Ho E L Sg E' Hy k Hk. destruct (C73_value x o span pulse beta sigma normal zi y zo Ho E L Sg) as (out' & E2 & _ & V). rewrite E2 in E'. injection E' as ->.
  apply V; auto. split; [intros j Hj; symmetry; apply Hy; auto|].
  set (h := / INR o). destruct p as [a b c d].
  exists (fun i => let t := INR i * h in mk_cubic (a + b * t + c * t ^ 2 + d * t ^ 3) (b + 2 * c * t + 3 * d * t ^ 2) (c + 3 * d * t) d).
  cbn zeta. unfold value, slope, bend. cbn [ca cb cc cd]. repeat split; intros; try rewrite plus_INR; cbn [INR]; try ring.
Qed.
Print Assumptions C73_cubic.
(** Inside the signal jitter is harmless: displacements which stay inside it change a sample by at most 12 osr |displacement|
    times the peak of the signal, and never lead beyond 3.5 times the peak. *)
Theorem C73_small : forall x o span pulse beta sigma normal zi y zo out k peak, (1 <= o)%nat -> pulse_shape x (Z.of_nat o) span pulse beta zi = Ok (y, zo) ->
  (4 <= length y)%nat -> 1e-8 < Rabs sigma -> pulse_shape_rj x (Z.of_nat o) span pulse beta sigma normal zi = Ok (out, zo) ->
  (forall v, In v y -> Rabs v <= peak) -> (k < length y)%nat ->
  let d := sigma * normal (k / o)%nat in 0 <= INR k / INR o + d <= INR (length y - 1) / INR o ->
  Rabs (nth k out 0 - nth k y 0) <= 12 * INR o * Rabs d * peak /\ Rabs (nth k out 0) <= 7 / 2 * peak.
Proof.
  intros x o span pulse beta sigma normal zi y zo out k peak Ho E L Sg E' Pk Hk d Hd. destruct (C73_value x o span pulse beta sigma normal zi y zo Ho E L Sg) as (out' & E2 & _ & V). rewrite E2 in E'. injection E' as ->.
  assert (Oo : 0 < INR o) by (apply lt_0_INR; lia). assert (P : 0 < / INR o) by (apply Rinv_0_lt_compat; auto). pose proof (cubic_is_spline (/ INR o) y P L) as S. rewrite (V _ S k Hk). fold d. destruct S as [S _]. rewrite <- (S k Hk) at 1.
  assert (PN : 0 <= peak) by (apply Rle_trans with (Rabs (nth 0 y 0)); [apply Rabs_pos|apply Pk, nth_In; lia]).
  assert (B : forall j, Rabs (nth j y 0) <= peak). { intros j. destruct (Nat.lt_ge_cases j (length y)); [apply Pk, nth_In; auto|]. rewrite nth_overflow, Rabs_R0 by auto. auto. }
  split.
  - eapply Rle_trans; [apply (interp_lip y peak L B (/ INR o) P)|].
    + exact Hd.
    + split; [apply Rmult_le_pos; [apply pos_INR|lra]|apply Rmult_le_compat_r; [lra|apply le_INR; lia]].
    + replace (INR k / INR o + d - INR k * / INR o) with d by (unfold Rdiv; ring). apply Req_le. field. lra.
  - apply (interp_bound y peak L B (/ INR o) P). exact Hd.
Qed.
Print Assumptions C73_small.

(** Four symbols through the rectangular pulse at one sample per symbol: 0, 1, -1, 1. *)
Lemma rect_symbols x beta : x <> [] -> exists y zo, pulse_shape x (Z.of_nat 1) (Z.of_nat 1) "rect" beta None = Ok (y, zo) /\ length y = length x /\ forall n, (n < length x)%nat -> nth n y 0 = nth n (0 :: x) 0.
Proof.
  intros Nx. destruct (C51_rect 1 1 x (le_n 1) (le_n 1) Nx) as [_ C]. destruct (C beta) as (h & y & zo & Eh & E & Ly & _ & F & _). exists y, zo. split; auto. split; [lia|]. intros n Hn. rewrite F by lia.
  destruct (zoh_spec 0 x 1) as (h' & Eh' & Lh & H). rewrite Eh' in Eh. injection Eh as ->. unfold delayed. change (1 * 1 - 1 / 2)%nat with 1%nat.
  destruct n as [|n]; [reflexivity|]. change (S n <? 1)%nat with false. cbv iota. replace (S n - 1)%nat with n by lia. rewrite (H n) by lia. now rewrite Nat.div_1_r.
Qed.
Definition ex_x : list R := [1; -1; 1; -1].
Definition ex_p : cubic := mk_cubic 0 (1 + 3 / 2 + 7 / 3) (- (3 / 2) - 7 / 2) (7 / 6).
Lemma ex_call normal : exists y zo out, pulse_shape ex_x (Z.of_nat 1) (Z.of_nat 1) "rect" 0 None = Ok (y, zo) /\ length y = 4%nat /\ (forall v, In v y -> Rabs v <= 1) /\
  pulse_shape_rj ex_x (Z.of_nat 1) (Z.of_nat 1) "rect" 0 1 normal None = Ok (out, zo) /\ length out = 4%nat /\ nth 3 out 0 = value ex_p (3 + normal 3%nat).
Proof.
  destruct (rect_symbols ex_x 0 ltac:(discriminate)) as (y & zo & E & L & F). cbn [ex_x length] in L.
  destruct (C73_value ex_x 1 _ "rect" 0 1 normal None y zo (le_n 1) E ltac:(lia) ltac:(rewrite Rabs_R1; lra)) as (out & E' & Lo & _).
  assert (N : forall k, (k < length y)%nat -> nth k y 0 = value ex_p (INR k / INR 1)).
  { intros k Hk. rewrite F by (cbn [ex_x length]; lia). rewrite L in Hk. unfold value, ex_p, ex_x. cbn [ca cb cc cd]. do 4 (destruct k as [|k]; [cbn [nth INR]; field|]). lia. }
  exists y, zo, out. split; auto. split; auto. split.
  - intros v Hv. apply (In_nth _ _ 0) in Hv as (k & Hk & <-). rewrite F by (cbn [ex_x length]; lia). rewrite L in Hk. unfold ex_x. do 4 (destruct k as [|k]; [cbn [nth]; apply Rabs_le; lra|]). lia.
  - split; auto. split; [lia|]. rewrite (C73_cubic ex_x 1 _ "rect" 0 1 normal None y zo out ex_p (le_n 1) E ltac:(lia) ltac:(rewrite Rabs_R1; lra) E' N 3) by lia.
    f_equal. cbn [INR]. change (3 / 1)%nat with 3%nat. field.
Qed.
Example C73_small_case : exists y zo out, pulse_shape ex_x (Z.of_nat 1) (Z.of_nat 1) "rect" 0 None = Ok (y, zo) /\ pulse_shape_rj ex_x (Z.of_nat 1) (Z.of_nat 1) "rect" 0 1 (fun _ => - / 2) None = Ok (out, zo) /\
  nth 3 out 0 = - (15 / 16) /\ Rabs (nth 3 out 0 - nth 3 y 0) <= 12 * INR 1 * Rabs (1 * - / 2) * 1.
Proof.
  destruct (ex_call (fun _ => - / 2)) as (y & zo & out & E & L & P & E' & Lo & V). exists y, zo, out. split; auto. split; auto. split; [rewrite V; unfold value, ex_p; cbn [ca cb cc cd]; field|].
  apply (C73_small ex_x 1 _ "rect" 0 1 (fun _ => - / 2) None y zo out 3 1 (le_n 1) E ltac:(lia) ltac:(rewrite Rabs_R1; lra) E' P ltac:(lia)). rewrite L. cbn [Nat.sub INR]. lra.
Qed.
(** (Finding.) At the ends of the signal that bound fails, since the polynomial of the last samples is continued: levels of one and a
    displacement of half a symbol give 5.6875. *)
Theorem C73_ends_refuted : ~ forall x beta sigma normal y zo out k peak, pulse_shape x 1 1 "rect" beta None = Ok (y, zo) ->
  (4 <= length y)%nat -> 1e-8 < Rabs sigma -> pulse_shape_rj x 1 1 "rect" beta sigma normal None = Ok (out, zo) ->
  (forall v, In v y -> Rabs v <= peak) -> (k < length y)%nat -> (forall j, Rabs (sigma * normal j) <= 1 / 2) -> Rabs (nth k out 0) <= 5 * peak.
Proof.
  intros H. destruct (ex_call (fun _ => / 2)) as (y & zo & out & E & L & P & E' & Lo & V).
  specialize (H ex_x 0 1 (fun _ => / 2) y zo out 3%nat 1 E ltac:(lia) ltac:(rewrite Rabs_R1; lra) E' P ltac:(lia)). rewrite V in H. unfold value, ex_p in H. cbn [ca cb cc cd] in H.
  assert (K : Rabs (0 + (1 + 3 / 2 + 7 / 3) * (3 + / 2) + (- (3 / 2) - 7 / 2) * (3 + / 2) ^ 2 + 7 / 6 * (3 + / 2) ^ 3) <= 5 * 1). { apply H. intros _. rewrite Rabs_right; lra. }
  apply Rabs_le_iff in K. lra.
Qed.
Print Assumptions C73_ends_refuted.
(** (Finding.) With jitter the chunks of a signal do not add up to the signal, though memory and draws are the same (C52_pulse_streaming
    holds without jitter): a displacement across the chunk border reads the continued polynomial instead of the next sample. *)
Theorem C73_streaming_refuted : ~ forall u v beta sigma normal y1 z1 y2 z2, pulse_shape_rj u 1 1 "rect" beta sigma normal None = Ok (y1, z1) ->
  pulse_shape_rj v 1 1 "rect" beta sigma (fun j => normal (length u + j)%nat) (Some z1) = Ok (y2, z2) ->
  pulse_shape_rj (u ++ v) 1 1 "rect" beta sigma normal None = Ok (y1 ++ y2, z2).
Proof.
  intros H. set (g := fun j : nat => 1). destruct (ex_call g) as (y & zo & out & E & L & P & E' & Lo & V).
  assert (Lz : length zo = 1%nat). { destruct (pulse_shape_spec ex_x 1 1 "rect" 0 rect_at [0] (le_n 1) (le_n 1) ltac:(now constructor) ltac:(discriminate) eq_refl) as (y0 & z0 & E0 & _ & L0 & _). rewrite (pulse_shape_none _ 1 1) in E by lia. cbn [Nat.mul Nat.add Nat.sub repeat] in E. rewrite E0 in E. injection E as _ <-. exact L0. }
  pose proof (C73_defined ex_x 1 1 "rect" 0 1 (fun j => g (length ex_x + j)%nat) zo (le_n 1) (le_n 1) ltac:(discriminate) Lz ltac:(auto) ltac:(rewrite Rabs_R1; lra)) as D.
  change (4 <=? length ex_x * 1)%nat with true in D. destruct D as (o2 & z2 & E2 & _).
  specialize (H ex_x ex_x 0 1 g out zo o2 z2 E' E2). destruct (rect_symbols (ex_x ++ ex_x) 0 ltac:(discriminate)) as (yy & zz & EE & LL & FF).
  assert (LY : length yy = 8%nat) by exact LL.
  assert (Ez : z2 = zz). { destruct (C73_value (ex_x ++ ex_x) 1 _ "rect" 0 1 g None yy zz (le_n 1) EE ltac:(lia) ltac:(rewrite Rabs_R1; lra)) as (o3 & E3 & _). change (pulse_shape_rj (ex_x ++ ex_x) (Z.of_nat 1) (Z.of_nat 1) "rect" 0 1 g None = Ok (out ++ o2, z2)) in H. rewrite E3 in H. injection H as _ ->. reflexivity. }
  subst zz. pose proof (C73_whole_samples (ex_x ++ ex_x) 1 _ "rect" 0 1 g None yy z2 (out ++ o2) 3 1 (le_n 1) EE ltac:(lia) ltac:(rewrite Rabs_R1; lra) H ltac:(lia) ltac:(unfold g; cbn [INR]; field) ltac:(lia)) as W.
  rewrite app_nth1 in W by lia. rewrite V in W. change (Z.to_nat (Z.of_nat 3 + 1)) with 4%nat in W. rewrite FF in W by (cbn; lia). revert W. unfold value, ex_p, g, ex_x. cbn [ca cb cc cd nth app]. intros W. lra.
Qed.
Print Assumptions C73_streaming_refuted.
