(** Proofs about soft_ddlms_grad. *)
From Coq Require Import Reals Lra Lia.
From Verif Require Import Py B_list M_lms S_lms P_lms M_soft S_soft.
Open Scope R_scope.

Lemma sumR_total l : sumR l = total l. Proof. induction l as [|a l IH]; [reflexivity|]. cbn [sumR fold_right total]. now rewrite <- IH. Qed.
Lemma total_scale c (f : R -> R) l : total (map (fun x => c * f x) l) = c * total (map f l).
Proof. induction l; cbn [map total]; [ring|]. rewrite IHl. ring. Qed.
Lemma total_ext {A} (f g : A -> R) l : (forall x, In x l -> f x = g x) -> total (map f l) = total (map g l).
Proof. induction l; intros H; cbn [map total]; auto. rewrite H, IHl; auto; [intros; apply H; now right|now left]. Qed.
Lemma total_pos l : l <> [] -> Forall (fun x => 0 < x) l -> 0 < total l.
Proof.
  intros N F. destruct l as [|a l]; [congruence|]. inversion F; subst. cbn [total].
  assert (0 <= total l) by (clear - H2; induction H2; cbn [total]; lra). lra.
Qed.
Lemma norm_pos sigma : sigma <> 0 -> 0 < sqrt (2 * PI * (sigma * sigma)).
Proof. intros S. apply sqrt_lt_R0. pose proof PI_RGT_0. assert (0 < sigma * sigma) by nra. nra. Qed.
Lemma len_pos (l : list R) : l <> [] -> 0 < INR (length l).
Proof. intros N. apply lt_0_INR. destruct l; [congruence|cbn; lia]. Qed.
Lemma temp1_pos s x mu : 0 < temp1 s x mu. Proof. apply exp_pos. Qed.
Lemma soft_f_mixture levels s x : levels <> [] -> s <> 0 -> soft_f (1 / INR (length levels)) levels s x = mixture levels s x.
Proof.
  intros N S. pose proof (norm_pos s S). pose proof (len_pos levels N). unfold soft_f, mixture, average. rewrite sumR_total, map_length.
  replace (2 * PI * s ^ 2) with (2 * PI * (s * s)) by ring.
  rewrite (total_ext (fun mu => gaussian s (x - mu)) (fun mu => / sqrt (2 * PI * (s * s)) * temp1 s x mu)).
  - rewrite total_scale. field. split; lra.
  - intros mu _. unfold gaussian, temp1. f_equal. f_equal. field. auto.
Qed.
Lemma mixture_pos levels s x : levels <> [] -> s <> 0 -> 0 < mixture levels s x.
Proof.
  intros N S. unfold mixture, average. rewrite map_length. apply Rdiv_lt_0_compat; [|now apply len_pos]. apply total_pos; [destruct levels; [congruence|discriminate]|].
  apply Forall_map, Forall_forall. intros mu _. unfold gaussian. apply Rmult_lt_0_compat; [apply Rinv_0_lt_compat; now apply norm_pos|apply exp_pos].
Qed.
Lemma temp1_derivative s mu x : s <> 0 -> derivable_pt_lim (fun x => temp1 s x mu) x (- temp2 s x mu).
Proof.
  intros S. unfold temp1.
  assert (D : derivable_pt_lim (fun x => -1 * (x - mu) ^ 2 / (2 * s ^ 2)) x (- ((x - mu) / s ^ 2))).
  { apply (derivable_pt_lim_ext (fun x => -1 / (2 * s ^ 2) * ((x - mu) * (x - mu)))); [intros; field; auto|].
    replace (- ((x - mu) / s ^ 2)) with (-1 / (2 * s ^ 2) * (1 * (x - mu) + (x - mu) * 1)) by (field; auto).
    apply (derivable_pt_lim_scal (fun x => (x - mu) * (x - mu))). 
    assert (L : derivable_pt_lim (fun x => x - mu) x 1) by (replace 1 with (1 - 0) by ring; apply (derivable_pt_lim_minus id (fct_cte mu)); [apply derivable_pt_lim_id|apply derivable_pt_lim_const]).
    exact (derivable_pt_lim_mult _ _ _ _ _ L L). }
  replace (- temp2 s x mu) with (exp (-1 * (x - mu) ^ 2 / (2 * s ^ 2)) * - ((x - mu) / s ^ 2)) by (unfold temp2, temp1; ring).
  exact (derivable_pt_lim_comp _ _ _ _ _ D (derivable_pt_lim_exp _)).
Qed.
Lemma total_derivative {A} (f : A -> R -> R) (f' : A -> R) x l : (forall a, In a l -> derivable_pt_lim (f a) x (f' a)) ->
  derivable_pt_lim (fun x => total (map (fun a => f a x) l)) x (total (map f' l)).
Proof.
  induction l as [|a l IH]; intros H; cbn [map total]; [apply (derivable_pt_lim_const 0)|].
  apply (derivable_pt_lim_plus (f a) (fun x => total (map (fun a => f a x) l))); [apply H; now left|apply IH; intros; apply H; now right].
Qed.
Lemma error_term levels s x : levels <> [] -> s <> 0 ->
  derivable_pt_lim (fun x => - ln (mixture levels s x)) x (soft_e (1 / INR (length levels)) levels s x / scale levels s).
Proof.
  intros N S. pose proof (norm_pos s S) as P1. pose proof (len_pos levels N) as P2. pose proof (mixture_pos levels s x N S) as P3.
  set (c := / (INR (length levels) * sqrt (2 * PI * (s * s)))).
  assert (D : derivable_pt_lim (mixture levels s) x (c * total (map (fun mu => - temp2 s x mu) levels))).
  { apply (derivable_pt_lim_ext (fun x => c * total (map (fun mu => temp1 s x mu) levels))).
    - intros z. rewrite <- soft_f_mixture by auto. unfold soft_f, c. rewrite (sumR_total (map (temp1 s z) levels)). replace (2 * PI * s ^ 2) with (2 * PI * (s * s)) by ring.
      change (map (fun mu => temp1 s z mu) levels) with (map (temp1 s z) levels). field. lra.
    - apply (derivable_pt_lim_scal (fun x => total (map (fun mu => temp1 s x mu) levels))). apply (total_derivative (fun mu x => temp1 s x mu)). intros mu _. now apply temp1_derivative. }
  pose proof (derivable_pt_lim_opp _ _ _ (derivable_pt_lim_comp _ _ _ _ _ D (derivable_pt_lim_ln _ P3))) as Q.
  match type of Q with derivable_pt_lim _ _ ?v => replace v with (soft_e (1 / INR (length levels)) levels s x / scale levels s) in Q end; [exact Q|].
  unfold soft_e, scale. rewrite soft_f_mixture, (sumR_total (map (temp2 s x) levels)) by auto.
  replace (total (map (fun mu => - temp2 s x mu) levels)) with (-1 * total (map (temp2 s x) levels)) by (rewrite <- total_scale; apply total_ext; intros; ring).
  unfold c. field. lra.
Qed.
Lemma signalR_nth l k : (0 <= k < Z.of_nat (length l))%Z -> signalR l k = nth (Z.to_nat k) l 0.
Proof. intros H. unfold signalR. replace ((0 <=? k) && (k <? Z.of_nat (length l)))%Z with true by lia. reflexivity. Qed.
(** Derivative of the mean loss when [d] times the tapped sample is added to the output. *)
Lemma tap_derivative levels s (M : list Z) (o y : Z -> R) : levels <> [] -> s <> 0 -> M <> [] ->
  derivable_pt_lim (fun d => neg_log_likelihood levels s (map (fun m => o m + d * y m) M)) 0
    (total (map (fun m => soft_e (1 / INR (length levels)) levels s (o m) * y m) M) / INR (length M) / scale levels s).
Proof.
  intros N S NM. assert (P : 0 < INR (length M)) by (apply lt_0_INR; destruct M; [congruence|cbn; lia]).
  pose proof (norm_pos s S) as P1. pose proof (len_pos levels N) as P2.
  assert (P3 : 0 < scale levels s) by (unfold scale; nra).
  apply (derivable_pt_lim_ext (fun d => / INR (length M) * total (map (fun m => - ln (mixture levels s (o m + d * y m))) M))).
  { intros d. unfold neg_log_likelihood, average. rewrite map_map, !map_length. field. lra. }
  replace (total _ / _ / _) with (/ INR (length M) * total (map (fun m => soft_e (1 / INR (length levels)) levels s (o m) / scale levels s * y m) M)).
  - apply (derivable_pt_lim_scal (fun d => total (map (fun m => - ln (mixture levels s (o m + d * y m))) M))). apply (total_derivative (fun m d => - ln (mixture levels s (o m + d * y m)))).
    intros m _. pose proof (error_term levels s (o m + 0 * y m) N S) as E.
    assert (L : derivable_pt_lim (fun d => o m + d * y m) 0 (y m)).
    { assert (L0 : derivable_pt_lim (fun d => o m + d * y m) 0 (0 + (1 * y m + 0 * 0))); [|replace (0 + (1 * y m + 0 * 0)) with (y m) in L0 by ring; exact L0]. apply (derivable_pt_lim_plus (fct_cte (o m)) (fun d => d * y m)); [apply derivable_pt_lim_const|].
      apply (derivable_pt_lim_mult id (fct_cte (y m))); [apply derivable_pt_lim_id|apply derivable_pt_lim_const]. }
    pose proof (derivable_pt_lim_comp _ _ _ _ _ L E) as C. replace (o m + 0 * y m) with (o m) in C by ring. exact C.
  - assert (T : forall l, total (map (fun m => soft_e (1 / INR (length levels)) levels s (o m) / scale levels s * y m) l) = / scale levels s * total (map (fun m => soft_e (1 / INR (length levels)) levels s (o m) * y m) l)).
    { induction l; cbn [map total]; [ring|]. rewrite IHl. field. lra. }
    rewrite T. field. lra.
Qed.
