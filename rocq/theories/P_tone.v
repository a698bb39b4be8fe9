(** The Blackman-Harris window and the spectrum of a tone. *)
From Coq Require Import Reals Lra Lia.
From Verif Require Import Py B_list M_soft M_psa S_channel P_channel P_limits P_psa P_dft S_psa.
Import List.
Open Scope R_scope.

Lemma turn_phase w d phi : (0 < d < w)%nat -> sum_upto (fun i => cos (INR i * (2 * PI * INR d / INR w) + phi)) w = 0.
Proof.
  intros H. destruct (unit_turn w d H) as (A & B).
  rewrite (sum_upto_ext _ (fun i => cos phi * cos (INR i * (2 * PI * INR d / INR w)) + - sin phi * sin (INR i * (2 * PI * INR d / INR w)))) by (intros i _; rewrite cos_plus; ring).
  rewrite sum_upto_add, !sum_upto_scale, A, B. ring.
Qed.
Lemma turn_product w m q phi : (m < q)%nat -> (q + m < w)%nat ->
  sum_upto (fun i => cos (INR i * (2 * PI * INR m / INR w)) * cos (INR i * (2 * PI * INR q / INR w) + phi)) w = 0.
Proof.
  intros H1 H2. assert (N : 0 < INR w) by (apply lt_0_INR; lia).
  rewrite (sum_upto_ext _ (fun i => / 2 * cos (INR i * (2 * PI * INR (q + m) / INR w) + phi) + / 2 * cos (INR i * (2 * PI * INR (q - m) / INR w) + phi))).
  - rewrite sum_upto_add, !sum_upto_scale, !turn_phase by lia. ring.
  - intros i _. rewrite plus_INR, minus_INR by lia. set (a := INR i * (2 * PI * INR m / INR w)). set (b := INR i * (2 * PI * INR q / INR w) + phi).
    replace (INR i * (2 * PI * (INR q + INR m) / INR w) + phi) with (b + a) by (unfold a, b; field; lra).
    replace (INR i * (2 * PI * (INR q - INR m) / INR w) + phi) with (b - a) by (unfold a, b; field; lra). rewrite cos_plus, cos_minus. field.
Qed.
Lemma bh_nth w i : (2 <= w)%nat -> (i < w)%nat -> nth i (blackmanharris w) 0 =
  0.35875 * cos (INR i * (2 * PI * INR 0 / INR w)) - 0.48829 * cos (INR i * (2 * PI * INR 1 / INR w)) + 0.14128 * cos (INR i * (2 * PI * INR 2 / INR w)) - 0.01168 * cos (INR i * (2 * PI * INR 3 / INR w)).
Proof.
  intros W I. assert (N : 0 < INR w) by (apply lt_0_INR; lia). unfold blackmanharris. rewrite (proj2 (Nat.eqb_neq w 1)) by lia. rewrite nth_map_seq by auto. cbn [Nat.add]. cbn zeta.
  set (t := 2 * PI * INR i / INR w). replace (INR i * (2 * PI * INR 0 / INR w)) with 0 by (cbn [INR]; field; lra).
  replace (INR i * (2 * PI * INR 1 / INR w)) with t by (unfold t; cbn [INR]; field; lra). replace (INR i * (2 * PI * INR 2 / INR w)) with (2 * t) by (unfold t; cbn [INR]; field; lra). replace (INR i * (2 * PI * INR 3 / INR w)) with (3 * t) by (unfold t; cbn [INR]; field; lra).
  replace (- PI + t) with (t - PI) by ring. replace (2 * (t - PI)) with (2 * t - 2 * PI) by ring. replace (3 * (t - PI)) with (3 * t - 3 * PI) by ring. rewrite !cos_minus.
  rewrite cos_0, cos_PI, sin_PI, cos_2PI, sin_2PI. replace (3 * PI) with (PI + 2 * PI) by ring. rewrite cos_plus, sin_plus, cos_PI, sin_PI, cos_2PI, sin_2PI. ring.
Qed.
Lemma bh_length w : length (blackmanharris w) = w.
Proof. unfold blackmanharris. destruct (Nat.eqb_spec w 1); [subst; auto|]. now rewrite map_length, seq_length. Qed.
(** Away from zero frequency the window has no harmonics above the third. *)
Lemma bh_tone w q phi : (3 < q)%nat -> (q + 3 < w)%nat -> sum_upto (fun i => nth i (blackmanharris w) 0 * cos (INR i * (2 * PI * INR q / INR w) + phi)) w = 0.
Proof.
  intros H1 H2. set (g := fun i => cos (INR i * (2 * PI * INR q / INR w) + phi)). set (f := fun m i => cos (INR i * (2 * PI * INR m / INR w))).
  rewrite (sum_upto_ext _ (fun i => (0.35875 * (f 0%nat i * g i) + - 0.48829 * (f 1%nat i * g i)) + (0.14128 * (f 2%nat i * g i) + - 0.01168 * (f 3%nat i * g i)))).
  - rewrite !sum_upto_add, !sum_upto_scale. unfold f, g. rewrite !turn_product by lia. ring.
  - intros i Hi. rewrite bh_nth by lia. fold (g i) (f 0%nat i) (f 1%nat i) (f 2%nat i) (f 3%nat i). lra.
Qed.
Lemma bh_sum w : (4 <= w)%nat -> sum_upto (fun i => nth i (blackmanharris w) 0) w = 0.35875 * INR w.
Proof.
  intros W. assert (T : forall m, (0 < m < w)%nat -> sum_upto (fun i => cos (INR i * (2 * PI * INR m / INR w))) w = 0) by (intros m Hm; apply (unit_turn w m Hm)).
  assert (T0 : sum_upto (fun i => cos (INR i * (2 * PI * INR 0 / INR w))) w = INR w).
  { rewrite (sum_upto_ext _ (fun _ => 1)), sum_upto_const; [ring|]. intros i _. cbn [INR]. replace (INR i * (2 * PI * 0 / INR w)) with 0 by (unfold Rdiv; ring). apply cos_0. }
  set (f := fun m i => cos (INR i * (2 * PI * INR m / INR w))) in *.
  rewrite (sum_upto_ext _ (fun i => (0.35875 * f 0%nat i + - 0.48829 * f 1%nat i) + (0.14128 * f 2%nat i + - 0.01168 * f 3%nat i))).
  - rewrite !sum_upto_add, !sum_upto_scale. unfold f. rewrite T0, (T 1%nat), (T 2%nat), (T 3%nat) by lia. lra.
  - intros i Hi. rewrite bh_nth by lia. fold (f 0%nat i) (f 1%nat i) (f 2%nat i) (f 3%nat i). lra.
Qed.
Lemma bh_good : good_window blackmanharris.
Proof.
  intros n N. split; [apply bh_length|]. destruct (Nat.le_gt_cases 4 n) as [H|H].
  - rewrite bh_sum by auto. assert (0 < INR n) by (apply lt_0_INR; lia). lra.
  - destruct n as [|[|[|[|n]]]]; [lia|cbn; lra| | |lia].
    + cbn [sum_upto]. rewrite !bh_nth by lia. change (INR 0) with 0. change (INR 1) with 1. replace (INR 2) with 2 by (cbn; lra). replace (INR 3) with 3 by (cbn; lra).
      rewrite !Rmult_0_l, !Rmult_1_l. replace (2 * PI * 0 / 2) with 0 by field. replace (2 * PI * 1 / 2) with PI by field. replace (2 * PI * 2 / 2) with (2 * PI) by field. replace (2 * PI * 3 / 2) with (PI + 2 * PI) by field.
      rewrite (cos_plus PI), cos_0, cos_PI, sin_PI, cos_2PI, sin_2PI. lra.
    + assert (T : forall m, (0 < m < 3)%nat -> sum_upto (fun i => cos (INR i * (2 * PI * INR m / INR 3))) 3 = 0) by (intros m Hm; apply (unit_turn 3 m Hm)).
      set (f := fun m i => cos (INR i * (2 * PI * INR m / INR 3))) in *.
      assert (F0 : forall i, f 0%nat i = 1) by (intros i; unfold f; change (INR 0) with 0; replace (INR i * (2 * PI * 0 / INR 3)) with 0 by (unfold Rdiv; ring); apply cos_0).
      assert (F3 : forall i, f 3%nat i = 1).
      { intros i. unfold f. replace (INR i * (2 * PI * INR 3 / INR 3)) with (0 + 2 * INR i * PI) by (field; apply not_0_INR; lia). rewrite cos_period. apply cos_0. }
      rewrite (sum_upto_ext _ (fun i => (0.35875 * f 0%nat i + - 0.48829 * f 1%nat i) + (0.14128 * f 2%nat i + - 0.01168 * f 3%nat i))).
      * pose proof (T 1%nat ltac:(lia)) as T1. pose proof (T 2%nat ltac:(lia)) as T2. change (sum_upto (f 1%nat) 3 = 0) in T1. change (sum_upto (f 2%nat) 3 = 0) in T2. clearbody f. clear T. cbn [sum_upto] in *. rewrite !F0, !F3. lra.
      * intros i Hi. rewrite bh_nth by lia. fold (f 0%nat i) (f 1%nat i) (f 2%nat i) (f 3%nat i). lra.
Qed.
