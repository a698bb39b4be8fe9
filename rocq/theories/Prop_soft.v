(** C46: the soft decision directed LMS gradient. *)
From Coq Require Import Reals Lra Lia.
From Verif Require Import Py B_list M_lms S_lms P_lms M_soft S_soft P_soft.
Open Scope R_scope.

(** The per-sample error of the code is [scale] times the derivative of the negative log likelihood. *)
Theorem C46_error_term : forall levels sigma x, levels <> [] -> sigma <> 0 ->
  derivable_pt_lim (fun x => - ln (mixture levels sigma x)) x (soft_e (1 / INR (length levels)) levels sigma x / scale levels sigma).
Proof. exact error_term. Qed.
Print Assumptions C46_error_term.
(** The whole function: the loss is the mean negative log likelihood of the outputs, and each gradient entry is
    [scale / 2] times the derivative, along that tap, of the loss over the samples where the tap has data. *)
Theorem C46_gradients : forall (y out ref levels : list R) sigma (fi di : list Z),
  length y = length ref -> length out = length ref -> Forall (fun j => 0 <= j)%Z di -> levels <> [] -> sigma <> 0 ->
  exists loss gf gd,
    soft_ddlms_grad y out levels sigma fi di ref =
      Ok (match fi, di with
          | [], [] => OnlyLoss loss | [], _ :: _ => LossDfe loss gd | _ :: _, [] => LossFfe loss gf | _ :: _, _ :: _ => LossBoth loss gf gd
          end) /\
    loss = (if (length ref =? 0)%nat then None else Some (neg_log_likelihood levels sigma out)) /\
    length gf = length fi /\ length gd = length di /\
    (forall p, (p < length fi)%nat -> match overlap (length ref) (nth p fi 0%Z) with
       | [] => nth p gf None = None
       | M => exists g, nth p gf None = Some g /\
           derivable_pt_lim (fun d => neg_log_likelihood levels sigma (map (fun m => signalR out m + d * signalR y (m - nth p fi 0%Z)) M)) 0 (2 * g / scale levels sigma)
       end) /\
    (forall p, (p < length di)%nat -> match overlap (length ref) (nth p di 0%Z) with
       | [] => nth p gd None = None
       | M => exists g, nth p gd None = Some g /\
           derivable_pt_lim (fun d => neg_log_likelihood levels sigma (map (fun m => signalR out m - d * signalR ref (m - nth p di 0%Z)) M)) 0 (2 * g / scale levels sigma)
       end).
Proof.
  intros y out ref levels s fi di Ly Lo Fd N S. set (c := 1 / INR (length levels)). set (e := map (soft_e c levels s) out). set (n := length ref).
  assert (Le : length e = n) by (unfold e; now rewrite map_length).
  assert (E : soft_ddlms_grad y out levels s fi di ref =
    Ok (return_function (option_map (fun m => -1 * m) (np_meanR (map ln (map (soft_f c levels s) out))))
      (map (fun i => option_map (fun m => 0.5 * m) (np_meanR (map (fun m => sig 0 e m * sig 0 y (m - i)) (overlap n i)))) fi)
      (map (fun i => option_map (fun m => -0.5 * m) (np_meanR (map (fun m => sig 0 e m * sig 0 ref (m - i)) (overlap n i)))) di) (length fi) (length di))).
  { unfold soft_ddlms_grad. replace (length levels =? 0)%nat with false by (destruct levels; [congruence|reflexivity]). fold c. cbv zeta. fold e.
    unfold compute_derivatives. rewrite Ly. fold n.
    rewrite (map_res_ok _ (fun i => option_map (fun m => 0.5 * m) (np_meanR (map (fun m => sig 0 e m * sig 0 y (m - i)) (overlap n i)))));
      [|intros i _; apply (ffe_tap _ _ _ (fun x => x)); lia]. cbn [bind].
    rewrite (map_res_ok _ (fun i => option_map (fun m => -0.5 * m) (np_meanR (map (fun m => sig 0 e m * sig 0 ref (m - i)) (overlap n i)))));
      [|intros i Hi; rewrite Forall_forall in Fd; apply (dfe_tap _ _ (fun x => x)); [unfold n; lia|lia|now apply Fd]]. reflexivity. }
  rewrite E. do 3 eexists. split; [destruct fi, di; reflexivity|]. split; [|split; [apply map_length|split; [apply map_length|]]].
  - unfold n. destruct (length ref =? 0)%nat eqn:Z0; [apply Nat.eqb_eq in Z0; destruct ref, out; try discriminate; reflexivity|]. apply Nat.eqb_neq in Z0.
    assert (No : out <> []) by (intros ->; cbn in Lo; lia). clear - No N S. unfold neg_log_likelihood, average. rewrite !map_map.
    set (L := map _ out). assert (NL : L <> []) by (unfold L; destruct out; [congruence|discriminate]).
    assert (EL : np_meanR L = Some (sumR L / INR (length L))) by (destruct L; [congruence|reflexivity]). rewrite EL. cbn [option_map]. f_equal.
    rewrite (sumR_total L). unfold L. rewrite !map_length. unfold Rdiv. rewrite <- Rmult_assoc. f_equal. rewrite <- total_scale. apply total_ext. intros x _. unfold c. rewrite soft_f_mixture by auto. ring.
  - assert (P3 : 0 < scale levels s) by (pose proof (norm_pos s S); pose proof (len_pos levels N); unfold scale; nra).
    assert (Se : forall m, (0 <= m < Z.of_nat n)%Z -> sig 0 e m = soft_e c levels s (signalR out m)).
    { intros m Hm. unfold sig, e. rewrite (map_nth_lt _ _ _ 0) by (unfold n in Hm; lia). rewrite signalR_nth by (unfold n in Hm; lia). reflexivity. }
    split; intros p Hp; rewrite (map_nth_lt _ _ _ 0%Z) by auto; set (i := nth p _ 0%Z); fold n; destruct (overlap n i) as [|m0 M0] eqn:EM; try reflexivity; rewrite <- EM;
      assert (NM : overlap n i <> []) by congruence.
    + exists (0.5 * (total (map (fun m => soft_e c levels s (signalR out m) * signalR y (m - i)) (overlap n i)) / INR (length (overlap n i)))). split.
      * replace (map _ (overlap n i)) with (map (fun m => soft_e c levels s (signalR out m) * signalR y (m - i)) (overlap n i))
          by (apply map_ext_in; intros m I; apply overlap_In in I; rewrite Se by lia; f_equal; unfold sig; apply signalR_nth; lia).
        rewrite EM at 1. cbn [map np_meanR option_map]. rewrite <- (sumR_total (map _ (overlap n i))), EM. cbn [map]. rewrite !map_length || cbn [length]; rewrite ?map_length; reflexivity.
      * pose proof (tap_derivative levels s (overlap n i) (signalR out) (fun m => signalR y (m - i)%Z) N S NM) as D. fold c in D.
        match type of D with derivable_pt_lim _ _ ?v => match goal with |- derivable_pt_lim _ _ ?w => replace w with v; [exact D|replace 0.5 with (/ 2) by lra; try replace (-0.5) with (- / 2) by lra; field; split; first [lra|apply Rgt_not_eq, lt_0_INR; rewrite EM; cbn; lia]] end end.
    + exists (-0.5 * (total (map (fun m => soft_e c levels s (signalR out m) * signalR ref (m - i)) (overlap n i)) / INR (length (overlap n i)))). split.
      * replace (map _ (overlap n i)) with (map (fun m => soft_e c levels s (signalR out m) * signalR ref (m - i)) (overlap n i))
          by (apply map_ext_in; intros m I; apply overlap_In in I; rewrite Se by lia; f_equal; unfold sig; apply signalR_nth; unfold n in I; lia).
        rewrite EM at 1. cbn [map np_meanR option_map]. rewrite <- (sumR_total (map _ (overlap n i))), EM. cbn [map]. rewrite !map_length || cbn [length]; rewrite ?map_length; reflexivity.
      * pose proof (tap_derivative levels s (overlap n i) (signalR out) (fun m => - signalR ref (m - i)%Z) N S NM) as D. fold c in D.
        assert (T : forall l, total (map (fun m => soft_e c levels s (signalR out m) * - signalR ref (m - i)) l) = - total (map (fun m => soft_e c levels s (signalR out m) * signalR ref (m - i)) l)).
        { induction l; cbn [map total]; [ring|]. rewrite IHl. ring. }
        rewrite T in D. apply (derivable_pt_lim_ext (fun d => neg_log_likelihood levels s (map (fun m => signalR out m + d * - signalR ref (m - i)) (overlap n i)))).
        { intros d. f_equal. apply map_ext. intros. ring. }
        match type of D with derivable_pt_lim _ _ ?v => match goal with |- derivable_pt_lim _ _ ?w => replace w with v; [exact D|replace 0.5 with (/ 2) by lra; try replace (-0.5) with (- / 2) by lra; field; split; first [lra|apply Rgt_not_eq, lt_0_INR; rewrite EM; cbn; lia]] end end.
Qed.
Print Assumptions C46_gradients.
(** Finding: the error term is not the derivative announced in the docstring; one level, sigma = 1. *)
Theorem C46_unscaled_refuted : ~ (forall levels sigma x, levels <> [] -> sigma <> 0 ->
  derivable_pt_lim (fun x => - ln (mixture levels sigma x)) x (soft_e (1 / INR (length levels)) levels sigma x)).
Proof.
  intros H. assert (N : [0] <> []) by discriminate. pose proof (H [0] 1 1 N R1_neq_R0) as A. pose proof (error_term [0] 1 1 N R1_neq_R0) as B.
  pose proof (uniqueness_limite _ _ _ _ A B) as E.
  assert (K : 1 < scale [0] 1).
  { unfold scale. cbn [length INR]. rewrite !Rmult_1_l, !Rmult_1_r. rewrite <- sqrt_1 at 1. apply sqrt_lt_1_alt. pose proof PI2_1. unfold PI2 in *. lra. }
  assert (P : 0 < soft_e (1 / INR (length [0])) [0] 1 1).
  { unfold soft_e. rewrite soft_f_mixture by (auto; lra). cbn [map sumR fold_right]. unfold temp2. pose proof (mixture_pos [0] 1 1 N R1_neq_R0). pose proof (temp1_pos 1 1 0).
    apply Rmult_lt_0_compat; [apply Rdiv_lt_0_compat; lra|]. lra. }
  set (v := soft_e _ _ _ _) in *. set (k := scale _ _) in *. clearbody v k. apply (Rmult_eq_compat_r k) in E. unfold Rdiv in E. rewrite Rmult_assoc, Rinv_l in E by lra. nra.
Qed.
Print Assumptions C46_unscaled_refuted.
(** Without levels the probability 1/len(levels) divides by zero. *)
Theorem C46_no_levels : forall y out sigma fi di ref, soft_ddlms_grad y out [] sigma fi di ref = Raise ZeroDivisionError.
Proof. reflexivity. Qed.
Print Assumptions C46_no_levels.
(** Four levels, three samples, taps with and without data: the hypotheses hold and the entries are as described. *)
Example C46_case : exists loss g, soft_ddlms_grad [1; 2; -1] [1; 3; -1] [-3; -1; 1; 3] 1 [0; 5]%Z [] [1; 3; -1] = Ok (LossFfe loss [Some g; None]) /\
  Forall (fun j => 0 <= j)%Z [] /\ (1 <> 0) /\ [-3; -1; 1; 3] <> [].
Proof. do 2 eexists. repeat split; try discriminate; auto; lra. Qed.
