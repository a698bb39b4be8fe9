(** Lemmas for C57 and C62: continuity of the raised cosine, limits of the root raised cosine, noise power. *)
From Coq Require Import Reals Lra Lia.
From Verif Require Import Py B_list M_delay P_delay M_soft M_channel S_channel P_channel P_pulse.
Import List.
Open Scope R_scope.

Lemma cont_near f g x0 d : 0 < d -> (forall t, Rabs (t - x0) < d -> f t = g t) -> continuity_pt g x0 -> continuity_pt f x0.
Proof.
  intros Hd E C eps He. destruct (C eps He) as (al & Ha & H). exists (Rmin al d). split; [apply Rmin_glb_lt; auto|].
  intros x [D Hx]. cbn [dist R_met] in *. unfold R_dist in *. assert (Rabs (x - x0) < al) by (eapply Rlt_le_trans; [exact Hx|apply Rmin_l]).
  assert (Rabs (x - x0) < d) by (eapply Rlt_le_trans; [exact Hx|apply Rmin_r]). rewrite (E x), (E x0); auto. rewrite Rminus_diag_eq, Rabs_R0; auto.
Qed.
Lemma sinc_cont x0 : continuity_pt sinc x0.
Proof.
  pose proof PI_RGT_0 as PP. destruct (Req_dec x0 0) as [->|N].
  - intros eps He. destruct (derivable_pt_lim_sin_0 eps He) as (del & Hd). exists (del / PI). split; [apply Rdiv_lt_0_compat; [apply cond_pos|auto]|].
    intros x [[_ D] Hx]. cbn [dist R_met] in *. unfold R_dist in *. rewrite Rminus_0_r in Hx. rewrite sinc_0. unfold sinc. destruct (Req_EM_T x 0); [exfalso; auto|].
    assert (P : PI * x <> 0) by (intros X; apply Rmult_integral in X; lra). specialize (Hd (PI * x) P). rewrite Rplus_0_l, sin_0, Rminus_0_r in Hd. apply Hd.
    rewrite Rabs_mult, (Rabs_pos_eq PI) by lra. apply (Rmult_lt_compat_l PI) in Hx; auto. replace (PI * (del / PI)) with (pos del) in Hx by (field; lra). exact Hx.
  - apply (cont_near _ (fun t => sin (PI * t) / (PI * t)) _ (Rabs x0)).
    + now apply Rabs_pos_lt.
    + intros t Ht. unfold sinc. destruct (Req_EM_T t 0) as [->|]; auto. rewrite Rminus_0_l, Rabs_Ropp in Ht. lra.
    + reg. intros X. apply Rmult_integral in X. lra.
Qed.
Lemma sinc_nz t : t <> 0 -> sinc t = sin (PI * t) / (PI * t). Proof. unfold sinc. destruct (Req_EM_T t 0); congruence. Qed.
(** The raised cosine without a removable singularity at 2 beta t = 1. *)
Lemma rcos_alt beta t : beta <> 0 -> 1 + 2 * beta * t <> 0 -> rcos_at beta t = sinc t * (PI / 2 * sinc ((1 - 2 * beta * t) / 2) / (1 + 2 * beta * t)).
Proof.
  intros B N. pose proof PI_RGT_0 as PP. unfold rcos_at. destruct (Req_EM_T _ 1) as [E|E].
  - assert (U : 2 * beta * t = 1) by (unfold Rabs in E; destruct (Rcase_abs _); lra). rewrite U. replace ((1 - 1) / 2) with 0 by field. rewrite sinc_0.
    replace (1 / (2 * beta)) with t by (apply (Rmult_eq_reg_l (2 * beta)); [field_simplify; lra|lra]). field.
  - assert (U : 1 - 2 * beta * t <> 0) by (intros X; apply E; replace (2 * beta * t) with 1 by lra; apply Rabs_R1).
    rewrite (sinc_nz ((1 - 2 * beta * t) / 2)) by lra. replace (PI * ((1 - 2 * beta * t) / 2)) with (PI / 2 - PI * beta * t) at 1 by field. rewrite sin_shift. field. repeat split; auto; try lra.
    intros X. replace (1 - (2 * beta * t) ^ 2) with ((1 - 2 * beta * t) * (1 + 2 * beta * t)) in X by ring. apply Rmult_integral in X. lra.
Qed.
Lemma rcos_opp beta t : beta <> 0 -> rcos_at (- beta) t = rcos_at beta t.
Proof.
  intros B. unfold rcos_at. replace (2 * - beta * t) with (- (2 * beta * t)) by ring. rewrite Rabs_Ropp. replace (1 / (2 * - beta)) with (- (1 / (2 * beta))) by (field; auto). rewrite sinc_even.
  replace (PI * - beta * t) with (- (PI * beta * t)) by ring. rewrite cos_neg. replace ((- (2 * beta * t)) ^ 2) with ((2 * beta * t) ^ 2) by ring. reflexivity.
Qed.
Lemma rcos_cont1 beta t0 : beta <> 0 -> 1 + 2 * beta * t0 <> 0 -> continuity_pt (rcos_at beta) t0.
Proof.
  intros B N. assert (Pos : 0 < Rabs ((1 + 2 * beta * t0) / (2 * beta))) by (apply Rabs_pos_lt; intros X; apply N; apply (Rmult_eq_compat_r (2 * beta)) in X; unfold Rdiv in X; rewrite Rmult_assoc, Rinv_l in X; lra).
  apply (cont_near _ (fun t => sinc t * (PI / 2 * sinc ((1 - 2 * beta * t) / 2) / (1 + 2 * beta * t))) _ _ Pos).
  - intros t Ht. apply rcos_alt; auto. intros X. replace t with (t0 - (1 + 2 * beta * t0) / (2 * beta)) in Ht by (apply (Rmult_eq_reg_l (2 * beta)); [field_simplify; lra|lra]).
    replace (t0 - (1 + 2 * beta * t0) / (2 * beta) - t0) with (- ((1 + 2 * beta * t0) / (2 * beta))) in Ht by ring. rewrite Rabs_Ropp in Ht. lra.
  - apply (continuity_pt_mult sinc (fun t => PI / 2 * sinc ((1 - 2 * beta * t) / 2) / (1 + 2 * beta * t))); [apply sinc_cont|].
    apply (continuity_pt_div (fun t => PI / 2 * sinc ((1 - 2 * beta * t) / 2)) (fun t => 1 + 2 * beta * t)); [|reg|auto].
    apply (continuity_pt_scal (fun t => sinc ((1 - 2 * beta * t) / 2))). apply (continuity_pt_comp (fun t => (1 - 2 * beta * t) / 2) sinc); [reg|apply sinc_cont].
Qed.
Lemma rcos_cont beta t0 : beta <> 0 -> continuity_pt (rcos_at beta) t0.
Proof.
  intros B. destruct (Req_dec (1 + 2 * beta * t0) 0) as [E|E]; [|now apply rcos_cont1].
  apply (cont_near _ (rcos_at (- beta)) _ 1); [lra|intros; symmetry; now apply rcos_opp|]. apply rcos_cont1; lra.
Qed.

(** * Limits *)
Lemma tends_limit f t0 l : tends_to f t0 l <-> limit1_in f (fun t => t <> t0) l t0.
Proof.
  split; intros H eps He; destruct (H eps He) as (d & Hd & G); exists d; (split; [exact Hd|]).
  - intros x [Nx Dx]. now apply G.
  - intros t Nt Dt. now apply G.
Qed.
Lemma tends_cont g t0 : continuity_pt g t0 -> tends_to g t0 (g t0).
Proof.
  intros C eps He. destruct (C eps He) as (d & Hd & G). exists d. split; auto. intros t Nt Dt. apply G. split; auto. split; [exact I|auto].
Qed.
Lemma tends_near f g t0 l d : 0 < d -> (forall t, t <> t0 -> Rabs (t - t0) < d -> f t = g t) -> tends_to g t0 l -> tends_to f t0 l.
Proof.
  intros Hd E T eps He. destruct (T eps He) as (d' & Hd' & G). exists (Rmin d d'). split; [apply Rmin_glb_lt; auto|]. intros t Nt Dt.
  assert (Rabs (t - t0) < d) by (eapply Rlt_le_trans; [exact Dt|apply Rmin_l]). assert (Rabs (t - t0) < d') by (eapply Rlt_le_trans; [exact Dt|apply Rmin_r]). rewrite E; auto.
Qed.
Lemma tends_mult f g t0 l m : tends_to f t0 l -> tends_to g t0 m -> tends_to (fun t => f t * g t) t0 (l * m).
Proof. rewrite !tends_limit. apply limit_mul. Qed.
Lemma tends_slope N t0 d : derivable_pt_lim N t0 d -> N t0 = 0 -> tends_to (fun t => N t / (t - t0)) t0 d.
Proof.
  intros D N0 eps He. destruct (D eps He) as (del & H). exists del. split; [apply cond_pos|]. intros t Nt Dt. specialize (H (t - t0) ltac:(lra) Dt).
  replace (t0 + (t - t0)) with t in H by ring. rewrite N0, Rminus_0_r in H. exact H.
Qed.
Lemma rrc_limit_zero beta : beta <> 0 -> tends_to (rrc_else beta) 0 (rrc_zero beta).
Proof.
  intros B. pose proof PI_RGT_0 as PP. destruct (Req_dec beta 1) as [->|N1].
  - (* the sine vanishes *)
    apply (tends_near _ (fun t => 4 / PI * cos (2 * PI * t) / (1 - (4 * t) ^ 2)) _ _ 1); [lra| |].
    + intros t Nt _. unfold rrc_else. replace ((1 - 1) * PI * t) with 0 by ring. rewrite sin_0. replace (0 / (4 * 1 * t)) with 0 by (field; auto).
      replace ((1 + 1) * PI * t) with (2 * PI * t) by ring. rewrite Rplus_0_r. unfold Rdiv. rewrite !Rmult_1_r. reflexivity.
    + replace (rrc_zero 1) with ((fun t => 4 / PI * cos (2 * PI * t) / (1 - (4 * t) ^ 2)) 0).
      * apply (tends_cont (fun t => 4 / PI * cos (2 * PI * t) / (1 - (4 * t) ^ 2))). reg. rewrite Rmult_0_r. lra.
      * cbv beta. unfold rrc_zero. rewrite !Rmult_0_r, cos_0. field. lra.
  - apply (tends_near _ (fun t => 4 * beta / PI * (cos ((1 + beta) * PI * t) + (1 - beta) * PI / (4 * beta) * sinc ((1 - beta) * t)) / (1 - (4 * beta * t) ^ 2)) _ _ 1); [lra| |].
    + intros t Nt _. unfold rrc_else. f_equal. f_equal. f_equal. rewrite sinc_nz by (intros X; apply Rmult_integral in X; lra). replace (PI * ((1 - beta) * t)) with ((1 - beta) * PI * t) by ring. field. repeat split; auto; lra.
    + replace (rrc_zero beta) with ((fun t => 4 * beta / PI * (cos ((1 + beta) * PI * t) + (1 - beta) * PI / (4 * beta) * sinc ((1 - beta) * t)) / (1 - (4 * beta * t) ^ 2)) 0).
      * apply (tends_cont (fun t => 4 * beta / PI * (cos ((1 + beta) * PI * t) + (1 - beta) * PI / (4 * beta) * sinc ((1 - beta) * t)) / (1 - (4 * beta * t) ^ 2))). apply (continuity_pt_div (fun t => 4 * beta / PI * (cos ((1 + beta) * PI * t) + (1 - beta) * PI / (4 * beta) * sinc ((1 - beta) * t))) (fun t => 1 - (4 * beta * t) ^ 2)); [|reg|rewrite Rmult_0_r; lra].
        apply (continuity_pt_scal (fun t => cos ((1 + beta) * PI * t) + (1 - beta) * PI / (4 * beta) * sinc ((1 - beta) * t))).
        apply (continuity_pt_plus (fun t => cos ((1 + beta) * PI * t)) (fun t => (1 - beta) * PI / (4 * beta) * sinc ((1 - beta) * t))); [reg|].
        apply (continuity_pt_scal (fun t => sinc ((1 - beta) * t))). apply (continuity_pt_comp (fun t => (1 - beta) * t) sinc); [reg|apply sinc_cont].
      * cbv beta. unfold rrc_zero. rewrite !Rmult_0_r, cos_0, sinc_0. field. split; lra.
Qed.
Lemma rrc_even beta t : beta <> 0 -> t <> 0 -> rrc_else beta (- t) = rrc_else beta t.
Proof.
  intros B T. unfold rrc_else. replace ((1 + beta) * PI * - t) with (- ((1 + beta) * PI * t)) by ring. replace ((1 - beta) * PI * - t) with (- ((1 - beta) * PI * t)) by ring. rewrite cos_neg, sin_neg.
  replace ((4 * beta * - t) ^ 2) with ((4 * beta * t) ^ 2) by ring. replace (- sin ((1 - beta) * PI * t) / (4 * beta * - t)) with (sin ((1 - beta) * PI * t) / (4 * beta * t)) by (field; auto). reflexivity.
Qed.
Lemma lin_der c t : derivable_pt_lim (fun t => c * t) t c.
Proof. pose proof (derivable_pt_lim_scal (fun t => t) c t 1 (derivable_pt_lim_id t)) as H. rewrite Rmult_1_r in H. exact H. Qed.
Lemma rrc_limit_edge beta : beta <> 0 -> tends_to (rrc_else beta) (1 / (4 * beta)) (rrc_edge beta).
Proof.
  intros B. pose proof PI_RGT_0 as PP. set (t0 := 1 / (4 * beta)). assert (T0 : 4 * beta * t0 = 1) by (unfold t0; field; auto). assert (Nt0 : t0 <> 0) by (intros X; rewrite X in T0; lra).
  set (A := PI / (4 * beta)). assert (A1 : (1 + beta) * PI * t0 = A + PI / 4) by (unfold t0, A; field; auto). assert (A2 : (1 - beta) * PI * t0 = A - PI / 4) by (unfold t0, A; field; auto).
  assert (S2 : 0 < sqrt 2) by (apply sqrt_lt_R0; lra).
  set (N := fun t => 4 * beta * t * cos ((1 + beta) * PI * t) + sin ((1 - beta) * PI * t)).
  assert (C1 : cos (A + PI / 4) = (cos A - sin A) / sqrt 2) by (rewrite cos_plus, cos_PI4, sin_PI4; field; lra).
  assert (C2 : sin (A + PI / 4) = (sin A + cos A) / sqrt 2) by (rewrite sin_plus, cos_PI4, sin_PI4; field; lra).
  assert (C3 : cos (A - PI / 4) = (cos A + sin A) / sqrt 2) by (rewrite cos_minus, cos_PI4, sin_PI4; field; lra).
  assert (C4 : sin (A - PI / 4) = (sin A - cos A) / sqrt 2) by (rewrite sin_minus, cos_PI4, sin_PI4; field; lra).
  assert (N0 : N t0 = 0) by (unfold N; rewrite T0, A1, A2, C1, C4; field; lra).
  assert (D : derivable_pt_lim N t0 (4 * beta * cos (A + PI / 4) - (1 + beta) * PI * sin (A + PI / 4) + (1 - beta) * PI * cos (A - PI / 4))).
  { rewrite <- A1, <- A2. replace (4 * beta * cos ((1 + beta) * PI * t0) - (1 + beta) * PI * sin ((1 + beta) * PI * t0) + (1 - beta) * PI * cos ((1 - beta) * PI * t0))
      with ((4 * beta * cos ((1 + beta) * PI * t0) + 4 * beta * t0 * (- sin ((1 + beta) * PI * t0) * ((1 + beta) * PI))) + cos ((1 - beta) * PI * t0) * ((1 - beta) * PI)) by (rewrite T0; ring).
    apply (derivable_pt_lim_plus (fun t => 4 * beta * t * cos ((1 + beta) * PI * t)) (fun t => sin ((1 - beta) * PI * t))).
    - apply (derivable_pt_lim_mult (fun t => 4 * beta * t) (fun t => cos ((1 + beta) * PI * t))).
      + apply lin_der.
      + apply (derivable_pt_lim_comp (fun t => (1 + beta) * PI * t) cos); [|apply derivable_pt_lim_cos]. apply lin_der.
    - apply (derivable_pt_lim_comp (fun t => (1 - beta) * PI * t) sin); [|apply derivable_pt_lim_sin]. apply lin_der. }
  assert (Pos : 0 < Rabs t0) by (now apply Rabs_pos_lt).
  apply (tends_near _ (fun t => N t / (t - t0) * (-1 / (4 * beta * PI * t * (1 + 4 * beta * t)))) _ _ _ Pos).
  - intros t Nt Dt. assert (Zt : t <> 0) by (intros ->; rewrite Rminus_0_l, Rabs_Ropp in Dt; lra).
    assert (St : 1 + 4 * beta * t <> 0). { intros X. assert (t = - t0) by (apply (Rmult_eq_reg_l (4 * beta)); [|lra]; replace (4 * beta * - t0) with (- (4 * beta * t0)) by ring; rewrite T0; lra). subst t. replace (- t0 - t0) with (- (2 * t0)) in Dt by ring. rewrite Rabs_Ropp, Rabs_mult, (Rabs_pos_eq 2) in Dt by lra. lra. }
    assert (Ut : 1 - 4 * beta * t <> 0). { intros X. apply Nt. apply (Rmult_eq_reg_l (4 * beta)); [|lra]. rewrite T0. lra. }
    assert (Vt : t - t0 <> 0) by lra.
    unfold rrc_else, N. replace (1 - (4 * beta * t) ^ 2) with ((1 - 4 * beta * t) * (1 + 4 * beta * t)) by ring.
    replace (1 - 4 * beta * t) with (- (4 * beta) * (t - t0)) by (rewrite Rmult_minus_distr_l; replace (- (4 * beta) * t0) with (- (4 * beta * t0)) by ring; rewrite T0; ring).
    generalize (cos ((1 + beta) * PI * t)) (sin ((1 - beta) * PI * t)). intros cc ss. field. repeat split; auto; lra.
  - replace (rrc_edge beta) with ((4 * beta * cos (A + PI / 4) - (1 + beta) * PI * sin (A + PI / 4) + (1 - beta) * PI * cos (A - PI / 4)) * (-1 / (4 * beta * PI * t0 * (1 + 4 * beta * t0)))).
    + apply tends_mult; [now apply tends_slope|]. apply (tends_cont (fun t => -1 / (4 * beta * PI * t * (1 + 4 * beta * t)))). reg.
      replace (4 * beta * PI * t0) with (4 * beta * t0 * PI) by ring. rewrite T0. lra.
    + replace (4 * beta * PI * t0) with (4 * beta * t0 * PI) by ring. rewrite T0, C1, C2, C3. unfold rrc_edge. fold A. field. split; lra.
Qed.

(** * Noise power *)
Lemma sumR_upto_map g l : sumR (map g l) = sum_upto (fun k => g (nth k l 0)) (length l).
Proof.
  rewrite <- sumR_upto. f_equal. apply (nth_ext_def 0); [now rewrite !map_length, seq_length|]. intros k Hk. rewrite map_length in Hk. rewrite nth_map_seq by auto. now rewrite (map_nth_lt _ _ _ 0).
Qed.
Lemma meanR_of l : meanR l = mean_of (fun x => x) l.
Proof. unfold meanR, mean_of. rewrite <- (map_id l) at 1. now rewrite sumR_upto_map. Qed.
Lemma variance_expand l : (1 <= length l)%nat -> pop_variance l = mean_square l - mean_of (fun x => x) l * mean_of (fun x => x) l.
Proof.
  intros H. assert (N : INR (length l) <> 0) by (apply not_0_INR; lia). unfold pop_variance, mean_square. set (m := mean_of (fun y => y) l). unfold mean_of.
  assert (M : sum_upto (fun k => nth k l 0) (length l) = m * INR (length l)) by (unfold m, mean_of; field; auto).
  rewrite (sum_upto_ext _ (fun k => nth k l 0 * nth k l 0 + ((-2 * m) * nth k l 0 + m * m * 1))) by (intros; ring).
  rewrite !sum_upto_add, !sum_upto_scale, M. replace (sum_upto (fun _ => 1) (length l)) with (INR (length l)). { field. auto. }
  clear. induction (length l) as [|n IH]; [reflexivity|]. rewrite S_INR. cbn [sum_upto]. now rewrite IH.
Qed.
Lemma var1_pop l : (2 <= length l)%nat -> var1 l = pop_variance l * INR (length l) / (INR (length l) - 1).
Proof.
  intros H. assert (N : 2 <= INR (length l)) by (apply (le_INR 2); auto). unfold var1, pop_variance, mean_of at 1. rewrite sumR_upto_map, meanR_of.
  rewrite (sum_upto_ext _ (fun k => (nth k l 0 - mean_of (fun y => y) l) * (nth k l 0 - mean_of (fun y => y) l))) by (intros; ring). field. lra.
Qed.
Lemma power_eq l : (2 <= length l)%nat -> sig_power_hat l = mean_square l + pop_variance l / (INR (length l) - 1).
Proof.
  intros H. assert (N : 2 <= INR (length l)) by (apply (le_INR 2); auto). unfold sig_power_hat. rewrite var1_pop, meanR_of by auto.
  pose proof (variance_expand l ltac:(lia)) as V. set (m := mean_of (fun x => x) l) in *. replace (m ^ 2) with (mean_square l - pop_variance l) by (rewrite V; ring). field. lra.
Qed.
Lemma sum_upto_nonneg f n : (forall k, (k < n)%nat -> 0 <= f k) -> 0 <= sum_upto f n.
Proof. induction n as [|n IH]; intros H; cbn [sum_upto]; [lra|]. apply Rplus_le_le_0_compat; auto. Qed.
Lemma mean_nonneg f l : (forall x, 0 <= f x) -> 0 <= mean_of f l.
Proof.
  intros H. unfold mean_of. destruct (Nat.eq_dec (length l) 0) as [E|E]; [rewrite E; cbn [sum_upto]; unfold Rdiv; rewrite Rmult_0_l; lra|].
  apply Rmult_le_pos; [apply sum_upto_nonneg; auto|]. left. apply Rinv_0_lt_compat, lt_0_INR. lia.
Qed.
