(** C53: CTLE. *)
From Coq Require Import Reals Lra Lia.
From Verif Require Import Py B_list M_soft M_channel S_channel P_channel M_ctle S_ctle P_ctle.
Import List.
Open Scope R_scope.
Local Ltac des := repeat match goal with |- _ /\ _ => split | |- Forall _ [] => apply Forall_nil | |- Forall _ (_ :: _) => apply Forall_cons | |- _ <> _ :> list _ => discriminate | |- _ => first [lra|intros ?; lra] end.

(** The discrete response is the documented transfer function at s = 2 fs osr (1 - x) / (1 + x), x = 1/z. *)
Theorem C53_transfer_function : forall zeros poles dc fs osr, design zeros poles dc fs osr ->
  exists b a, get_ctle_filter zeros poles dc fs osr = Ok (Some (b, a)) /\
    length b = S (Nat.max (length zeros) (length poles)) /\ length a = S (Nat.max (length zeros) (length poles)) /\
    forall x s, cmul s (cadd (cre 1) x) = cmul (cre (2 * (fs * osr))) (csub (cre 1) x) ->
      cmul (ceval b x) (corner_product poles s) = cmul (cre (linear_gain dc)) (cmul (ceval a x) (corner_product zeros s)).
Proof.
  intros zeros poles dc fs osr D. destruct (design_spec _ _ _ _ _ D) as (b & a & E & Lb & La & A0 & Hd & V). exists b, a. repeat (split; auto). intros x s H.
  destruct (V x) as (Vb & Va). rewrite (corner_subst _ _ s) in Va by auto. rewrite (corner_subst _ _ s) in Vb by auto. apply (cmul_cancel _ _ _ Hd). set (d := cre (corner_at poles _)) in *. set (m := Nat.max (length zeros) (length poles)) in *.
  transitivity (cmul (cmul d (ceval b x)) (corner_product poles s)); [ring|]. rewrite Vb.
  transitivity (cmul (cre (linear_gain dc)) (cmul (cmul d (ceval a x)) (corner_product zeros s))); [rewrite Va|ring].
  transitivity (cmul (cre (linear_gain dc)) (cmul (cpow (cadd (cre 1) x) (m - length zeros + length zeros)) (cmul (corner_product zeros s) (corner_product poles s)))); [rewrite cpow_add; ring|].
  replace (m - length zeros + length zeros)%nat with (m - length poles + length poles)%nat by lia. rewrite cpow_add. ring.
Qed.
Print Assumptions C53_transfer_function.
Example C53_design : design [2; -3] [-4; 5; 6] 0 1 8.
Proof.
  unfold design, linear_gain, corner_at. replace (0 / 20) with 0 by field. rewrite Rpower_O by lra. cbn [map prod_R fold_right].
  rewrite !(Rabs_pos_eq 2), !(Rabs_pos_eq 5), !(Rabs_pos_eq 6), (Rabs_left (-3)), (Rabs_left (-4)) by lra. replace (- -3) with 3 by ring. replace (- -4) with 4 by ring. des.
Qed.
(** DC gain. *)
Theorem C53_dc_gain : forall zeros poles dc fs osr b a, design zeros poles dc fs osr -> get_ctle_filter zeros poles dc fs osr = Ok (Some (b, a)) ->
  sum_of a <> 0 /\ sum_of b / sum_of a = linear_gain dc.
Proof. intros zeros poles dc fs osr b a D E. destruct (design_dc _ _ _ _ _ _ _ D E) as (H & P). split; [lra|]. rewrite H. field. lra. Qed.
Print Assumptions C53_dc_gain.
(** Poles strictly inside the unit circle: no x = 1/z with |x| <= 1 is a root. *)
Theorem C53_stable : forall zeros poles dc fs osr b a, design zeros poles dc fs osr -> (length zeros <= length poles)%nat ->
  get_ctle_filter zeros poles dc fs osr = Ok (Some (b, a)) -> forall x, cabs2 x <= 1 -> ceval a x <> cre 0.
Proof.
  intros zeros poles dc fs osr b a D L E x Hx H. destruct (design_spec _ _ _ _ _ D) as (b' & a' & E' & Lb & La & A0 & Hd & V). rewrite E in E'. injection E' as <- <-. destruct D as (_ & _ & _ & Fp & Pos & _).
  destruct (V x) as (_ & Va). rewrite H in Va. replace (_ - _)%nat with 0%nat in Va by lia. cbn [cpow] in Va.
  assert (Z : cprod (map (fun f => cadd (cadd (cre 1) x) (cmul (cre (/ Rabs f)) (cmul (cre (2 * (fs * osr))) (csub (cre 1) x)))) poles) = cre 0) by (transitivity (cmul (cre 1) (cprod (map (fun f => cadd (cadd (cre 1) x) (cmul (cre (/ Rabs f)) (cmul (cre (2 * (fs * osr))) (csub (cre 1) x)))) poles))); [ring|rewrite <- Va; ring]).
  apply cprod_0 in Z. apply Exists_exists in Z as (y & Hy & Ey). apply in_map_iff in Hy as (f & Ef & Hf). subst y. rewrite Forall_forall in Fp.
  apply (factor_nz (/ Rabs f * (2 * (fs * osr))) x); auto; [apply Rmult_lt_0_compat; [apply Rinv_0_lt_compat, Rabs_pos_lt; auto|lra]|].
  rewrite cre_mul. rewrite <- Ey. ring.
Qed.
Print Assumptions C53_stable.
(** Bounded signals give bounded outputs, whatever their length. *)
Theorem C53_bounded_output : forall zeros poles dc fs osr, design zeros poles dc fs osr -> (length zeros <= length poles)%nat ->
  exists K, 0 <= K /\ forall signal M, signal <> [] -> Forall (fun v => Rabs v <= M) signal ->
    exists y, ctle signal zeros poles dc fs osr None = Ok (Some (CtleOut y)) /\ length y = length signal /\ Forall (fun v => Rabs v <= K * M) y.
Proof.
  intros zeros poles dc fs osr D L. destruct (design_spec _ _ _ _ _ D) as (b & a & E & _). destruct (design_rhos _ _ _ _ _ _ _ D L E) as (Na & Nb & A0 & rhos & Ea & F).
  destruct (bounded_output b a rhos Ea F) as (K & HK & H). exists K. split; auto. intros signal M Ns FM. destruct (zero_state b a signal Na Nb A0 Ns) as (y & zf & Ey & Ly & Cy).
  exists y. unfold ctle. rewrite E. cbn [bind]. rewrite Ey. cbn [bind fst]. split; auto. split; auto. eapply H; eauto.
Qed.
Print Assumptions C53_bounded_output.
(** A step settles at the DC gain, uniformly in the length of the signal. *)
Theorem C53_step_settles : forall zeros poles dc fs osr, design zeros poles dc fs osr -> (length zeros <= length poles)%nat ->
  forall c eps, 0 < eps -> exists N, forall L, (0 < L)%nat ->
    exists y, ctle (repeat c L) zeros poles dc fs osr None = Ok (Some (CtleOut y)) /\ length y = L /\
      forall n, (N <= n < L)%nat -> Rabs (nth n y 0 - linear_gain dc * c) < eps.
Proof.
  intros zeros poles dc fs osr D L c eps He. destruct (design_spec _ _ _ _ _ D) as (b & a & E & _). destruct (design_rhos _ _ _ _ _ _ _ D L E) as (Na & Nb & A0 & rhos & Ea & F).
  destruct (design_dc _ _ _ _ _ _ _ D E) as (DC & _). destruct (step_settles b a rhos _ Ea F DC c eps He) as (N & H). exists N. intros len Hl.
  destruct (zero_state b a (repeat c len) Na Nb A0) as (y & zf & Ey & Ly & Cy); [destruct len; [lia|discriminate]|]. rewrite repeat_length in *.
  exists y. unfold ctle. rewrite E. cbn [bind]. rewrite Ey. cbn [bind fst]. split; auto. split; auto. eapply H; eauto.
Qed.
Print Assumptions C53_step_settles.
(** With memory the output is the difference equation and can be streamed in chunks. *)
Theorem C53_streaming : forall zeros poles dc fs osr u v z, design zeros poles dc fs osr -> length z = Nat.max (length zeros) (length poles) -> u <> [] -> v <> [] ->
  exists b a y1 z1 y2 z2, get_ctle_filter zeros poles dc fs osr = Ok (Some (b, a)) /\
    ctle u zeros poles dc fs osr (Some z) = Ok (Some (CtleBoth y1 z1)) /\ length z1 = length z /\ difference_equation b a z u y1 /\
    ctle v zeros poles dc fs osr (Some z1) = Ok (Some (CtleBoth y2 z2)) /\
    ctle (u ++ v) zeros poles dc fs osr (Some z) = Ok (Some (CtleBoth (y1 ++ y2) z2)) /\
    ctle u zeros poles dc fs osr None = (r <- ctle u zeros poles dc fs osr (Some (repeat 0 (length z))) ;; Ok match r with Some (CtleBoth y _) => Some (CtleOut y) | _ => None end).
Proof.
  intros zeros poles dc fs osr u v z D Lz Nu Nv. destruct (design_spec _ _ _ _ _ D) as (b & a & E & Lb & La & A0 & _). exists b, a.
  assert (LS : forall q : list R, length q = length z -> lf_shape b a (length q)) by (intros q Hq; repeat split; [intros ->; discriminate|intros ->; discriminate|lra|lia]).
  destruct (lfilter_spec b a u z (LS z eq_refl) Nu) as (y1 & z1 & E1 & L1 & L2 & F1 & _). destruct (lfilter_spec b a v z1 (LS z1 L2) Nv) as (y2 & z2 & E2 & L3 & L4 & F2 & _).
  pose proof (lfilter_stream _ _ _ _ _ _ _ _ _ (LS z eq_refl) Nu Nv E1 E2) as E3. exists y1, z1, y2, z2. unfold ctle. rewrite E. cbn [bind]. rewrite E1, E2, E3. cbn [bind fst snd]. split; auto. split; auto. split; auto. split.
  - split; auto. intros n Hn. rewrite F1 at 1 by auto. rewrite conv_upto, fb_conv. field. lra.
  - split; auto. split; auto. replace (Nat.max (length a) (length b) - 1)%nat with (length z) by lia. destruct (lfilter b a u (repeat 0 (length z))); reflexivity.
Qed.
Print Assumptions C53_streaming.
(** Finding: with more zeros than poles the filter has a pole on the unit circle, at z = -1. *)
Theorem C53_stable_refuted : (forall zeros poles dc fs osr b a, design zeros poles dc fs osr -> (length poles < length zeros)%nat ->
    get_ctle_filter zeros poles dc fs osr = Ok (Some (b, a)) -> ceval a (cre (-1)) = cre 0 /\ ceval b (cre (-1)) <> cre 0) /\
  design [1; 1] [1] 0 1 1.
Proof.
  split.
  - intros zeros poles dc fs osr b a D L E. destruct (design_spec _ _ _ _ _ D) as (b' & a' & E' & Lb & La & A0 & Hd & V). rewrite E in E'. injection E' as <- <-. destruct (V (cre (-1))) as (Vb & Va).
    replace (cadd (cre 1) (cre (-1))) with (cre 0) in Va, Vb by (apply Cx_eq; cbn; ring). split.
    + apply (cmul_cancel _ _ _ Hd). rewrite Va. rewrite cpow_cre. rewrite pow_i by lia. ring.
    + intros H. rewrite H in Vb. replace (Nat.max (length zeros) (length poles) - length zeros)%nat with 0%nat in Vb by lia. cbn [cpow] in Vb.
      assert (G : cre (linear_gain dc) <> cre 0) by (apply cre_nz; unfold linear_gain, Rpower; pose proof (exp_pos (dc / 20 * ln 10)); lra).
      match type of Vb with _ = cmul _ (cmul _ ?P) => assert (Z : P = cre 0) by (apply (cmul_cancel _ _ _ G); transitivity (cmul (cre (linear_gain dc)) (cmul (cre 1) P)); [ring|rewrite <- Vb; ring]) end.
      apply cprod_0, Exists_exists in Z as (y & Hy & Ey). apply in_map_iff in Hy as (f & Ef & Hf). subst y. destruct D as (_ & _ & Fz & _ & Pos & _). rewrite Forall_forall in Fz.
      assert (X : cre (/ Rabs f * (2 * (fs * osr) * 2)) = cre 0) by (rewrite <- Ey; apply Cx_eq; cbn; ring). apply cre_inj in X. pose proof (Rinv_0_lt_compat _ (Rabs_pos_lt f (Fz f Hf))). nra.
  - unfold design, linear_gain, corner_at. replace (0 / 20) with 0 by field. rewrite Rpower_O by lra. cbn [map prod_R fold_right]. rewrite !(Rabs_pos_eq 1) by lra. des.
Qed.
Print Assumptions C53_stable_refuted.
(** Finding: a first coefficient of at most 1e-14 is dropped and the DC gain is wrong, even in sign. *)
Theorem C53_dc_gain_refuted : exists zeros poles dc fs osr b a, Forall (fun f => f <> 0) zeros /\ Forall (fun f => f <> 0) poles /\ 0 < fs /\ 0 < osr /\
  get_ctle_filter zeros poles dc fs osr = Ok (Some (b, a)) /\ 0 < sum_of a /\ sum_of b < 0.
Proof.
  exists [1], [1], (-400), 1, 1. assert (F : Forall (fun f => f <> 0) [1]) by des.
  destruct (filter_spec [1] [1] (-400) 1 1 ltac:(discriminate) ltac:(discriminate) F F ltac:(lra)) as (b & a & d & b0 & Hd & E & Lb & La & A0 & B0 & Ed & Eb & V). exists (trim_small b), a. repeat (split; auto; try lra).
  - destruct (V (cre 1)) as (_ & Va). rewrite sum_ceval in Va. cbn in Va. unfold cre, cmul, cadd, csub in Va. cbn in Va. injection Va as Va _. rewrite Rabs_pos_eq in Va by lra. nra.
  - destruct (V (cre 1)) as (Vb & _). rewrite sum_ceval in Vb. set (g := Rpower 10 (-400 / 20)) in *.
    assert (G : 0 < g <= / 10 ^ 20). { unfold g. replace (-400 / 20) with (- INR 20) by (rewrite INR_IZR_INZ; cbn; field). rewrite Rpower_Ropp, Rpower_pow by lra. split; [apply Rinv_0_lt_compat|]; lra. }
    cbn in Vb, Ed, Eb. unfold cre, cmul, cadd, csub in Vb, Ed, Eb. cbn in Vb, Ed, Eb. injection Vb as Vb _. injection Ed as Ed _. injection Eb as Eb _. rewrite Rabs_pos_eq in Vb, Ed, Eb by lra.
    destruct b as [|c0 [|c1 [|]]]; try discriminate Lb. cbn in B0, Vb. subst c0. assert (d = 3) by lra. subst d. assert (b0 = g) by lra. subst b0. assert (C1 : c1 = - g / 3) by lra.
    cbn [trim_small]. rewrite Rabs_pos_eq by lra. destruct (Rle_dec g (/ 10 ^ 14)) as [_|N]; [cbn; lra|]. exfalso. apply N. lra.
Qed.
Print Assumptions C53_dc_gain_refuted.
(** Finding: frequencies documented in Hz act as angular frequencies. *)
Theorem C53_hertz_refuted : ~ forall zeros poles dc fs osr b a, design zeros poles dc fs osr -> get_ctle_filter zeros poles dc fs osr = Ok (Some (b, a)) ->
  forall x s, cmul s (cadd (cre 1) x) = cmul (cre (2 * (fs * osr))) (csub (cre 1) x) ->
    cmul (ceval b x) (corner_product (map (fun f => 2 * PI * f) poles) s) = cmul (cre (linear_gain dc)) (cmul (ceval a x) (corner_product (map (fun f => 2 * PI * f) zeros) s)).
Proof.
  intros H. assert (G : linear_gain 0 = 1) by (unfold linear_gain; replace (0 / 20) with 0 by field; apply Rpower_O; lra).
  assert (D : design [1] [2] 0 1 1). { unfold design. rewrite G. unfold corner_at. cbn [map prod_R fold_right]. rewrite !(Rabs_pos_eq 1), (Rabs_pos_eq 2) by lra. des. }
  destruct (C53_transfer_function _ _ _ _ _ D) as (b & a & E & _ & _ & T). specialize (T (cre 0) (cre 2) ltac:(apply Cx_eq; cbn; ring)). specialize (H _ _ _ _ _ _ _ D E (cre 0) (cre 2) ltac:(apply Cx_eq; cbn; ring)).
  rewrite !ceval_at0, G in *. assert (A0 : nth 0 a 0 = 1). { destruct (design_spec _ _ _ _ _ D) as (b' & a' & E' & _ & _ & A & _). rewrite E in E'. injection E' as <- <-. exact A. }
  rewrite A0 in *. set (b0 := nth 0 b 0) in *. clearbody b0. clear - T H. unfold corner_product in *. cbn [map cprod] in *. unfold cre, cmul, cadd in T, H. cbn in T, H. injection T as T _. injection H as H _.
  pose proof PI2_1 as P. rewrite (Rabs_pos_eq 2), (Rabs_pos_eq 1) in T by lra. rewrite (Rabs_pos_eq (2 * PI * 2)), (Rabs_pos_eq (2 * PI * 1)) in H by lra. assert (B : b0 = 3 / 2) by lra. subst b0.
  assert (I1 : / (2 * PI * 2) = / PI / 4) by (field; lra). assert (I2 : / (2 * PI * 1) = / PI / 2) by (field; lra). rewrite I1, I2 in H.
  assert (I3 : / PI * PI = 1) by (field; lra). assert (/ PI = 2) by lra. nra.
Qed.
Print Assumptions C53_hertz_refuted.
(** Refusals: no zeros or no poles raise ValueError; a frequency 0 gives a result which is not finite. *)
Theorem C53_refusals : forall zeros poles dc fs osr signal zi,
  (zeros = [] \/ poles = [] -> ctle signal zeros poles dc fs osr zi = Raise ValueError) /\
  (zeros <> [] -> poles <> [] -> In 0 zeros \/ In 0 poles -> get_ctle_filter zeros poles dc fs osr = Ok None).
Proof.
  intros zeros poles dc fs osr signal zi. split.
  - intros [-> | ->]; unfold ctle, get_ctle_filter; [reflexivity|]. destruct zeros; reflexivity.
  - intros Nz Np H. assert (U : forall l, In 0 l -> unit_dc (fromroots (map stable_root l)) = None).
    { intros l Hl. unfold unit_dc. rewrite fromroots_0. destruct (Req_EM_T (prod_R (map Ropp (map stable_root l))) 0) as [|N]; auto. destruct N. induction l as [|f l IH]; [destruct Hl|]. cbn [map prod_R fold_right]. destruct Hl as [-> | Hl]; [rewrite stable_root_abs, Rabs_R0; ring|].
      fold (prod_R (map Ropp (map stable_root l))). rewrite IH by auto. ring. }
    unfold get_ctle_filter. destruct zeros as [|z zs]; [congruence|]. destruct poles as [|p ps]; [congruence|].
    change (polynomial_fromroots (map stable_root (z :: zs))) with (Ok (fromroots (map stable_root (z :: zs)))). change (polynomial_fromroots (map stable_root (p :: ps))) with (Ok (fromroots (map stable_root (p :: ps)))). cbn [bind]. f_equal.
    destruct H as [H|H]; rewrite (U _ H); auto. now destruct (unit_dc _).
Qed.
Print Assumptions C53_refusals.
