From Verif Require Import Py B_list M_aux M_symbol M_levels P_map.
From Coq Require Import Reals Lra QArith Qreals SpecFloat.
Open Scope Z_scope.

Lemma round_R_near x n : (Rabs (x - IZR n) < 1 / 2)%R -> round_R x = n.
Proof.
  intros H. apply Rabs_def2 in H. unfold round_R. destruct (base_Int_part x) as [B1 B2].
  set (f := Int_part x) in *.
  assert (Hr : f = n \/ f = n - 1).
  { assert (f < n + 1) by (apply lt_IZR; rewrite plus_IZR; lra).
    assert (n - 2 < f) by (apply lt_IZR; rewrite minus_IZR; lra). lia. }
  destruct (Rlt_dec _ _) as [D|D]; [|destruct (Rlt_dec _ _) as [D2|D2]].
  - destruct Hr as [->|E]; auto. exfalso. rewrite E, minus_IZR in D, B1, B2. lra.
  - destruct Hr as [E|E]; [|lia]. exfalso. rewrite E in *. lra.
  - exfalso. destruct Hr as [E|E]; rewrite E in *; rewrite ?minus_IZR in *; lra.
Qed.
Lemma rmin_hd d (l : list R) : Forall (fun x => d <= x)%R l -> fold_right Rmin d l = d.
Proof. induction 1; simpl; auto. rewrite IHForall. now apply Rmin_right. Qed.

Definition rms (c : constellation) : R := sqrt (mean_sq_R (map IZR (get_levels c))).
Lemma mean_pos c : (0 < mean_sq_R (map IZR (get_levels c)))%R.
Proof. destruct c; unfold mean_sq_R; simpl; lra. Qed.
Lemma rms_pos c : (0 < rms c)%R.
Proof. apply sqrt_lt_R0, mean_pos. Qed.
Lemma fs_eq c : get_levels_fs c = map (fun z => IZR z / rms c)%R (get_levels c).
Proof. unfold get_levels_fs, rms. now rewrite map_map. Qed.
Lemma fs_length c : length (get_levels_fs c) = length (get_levels c).
Proof. rewrite fs_eq. apply map_length. Qed.

Lemma fs_power c : mean_sq_R (get_levels_fs c) = 1%R.
Proof.
  assert (Hp := rms_pos c). assert (Hm := mean_pos c).
  assert (S : (rms c * rms c = mean_sq_R (map IZR (get_levels c)))%R) by (apply sqrt_sqrt; lra).
  rewrite fs_eq. unfold mean_sq_R at 1. rewrite !map_map, map_length.
  unfold mean_sq_R in S. rewrite !map_map, map_length in S.
  set (r := rms c) in *.
  assert (E : forall l, fold_right Rplus 0%R (map (fun x => IZR x / r * (IZR x / r))%R l) =
     (fold_right Rplus 0%R (map (fun x => IZR x * IZR x)%R l) / (r * r))%R).
  { induction l; simpl; [field; lra|]. rewrite IHl. field. lra. }
  rewrite E.
  set (sm := fold_right Rplus 0%R _) in *. set (n := INR _) in *.
  assert (n <> 0)%R by (unfold n; destruct c; simpl; lra).
  assert (Hs : sm = (r * r * n)%R) by (rewrite S; field; auto). rewrite Hs. field. split; auto; lra.
Qed.

Lemma demap_idx_fs c x (i : nat) : (i < length (get_levels c))%nat ->
  (Rabs (x - nth i (get_levels_fs c) 0) < (nth 1 (get_levels_fs c) 0 - nth 0 (get_levels_fs c) 0) / 2)%R ->
  demap_idx_R (get_levels_fs c) x = Z.of_nat i.
Proof.
  intros Hi H. assert (Hp := rms_pos c). apply Rabs_def2 in H. unfold demap_idx_R. rewrite fs_eq in *.
  assert (Hinv := Rinv_0_lt_compat _ Hp).
  rewrite rmin_hd.
  2:{ destruct c; simpl; repeat constructor; unfold Rdiv; simpl; nra. }
  apply round_R_near. set (r := rms c) in *. set (k := (/ r)%R) in *. unfold Rdiv in *. fold k in H |- *.
  assert (G : forall st d, (0 < st)%R -> (Rabs d < st / 2)%R -> (Rabs (d / st) < 1 / 2)%R).
  { intros st d Hs Hd. unfold Rdiv. rewrite Rabs_mult, (Rabs_right (/ st)) by (apply Rle_ge; left; now apply Rinv_0_lt_compat).
    apply Rmult_lt_reg_r with st; auto. rewrite Rmult_assoc, Rinv_l by lra. lra. }
  destruct c; simpl in Hi; destruct i as [|[|[|[|i]]]]; try lia; simpl in H |- *; fold k in H |- *.
  all: match goal with |- (Rabs (?a * / ?st - IZR ?j) < _)%R =>
      replace (a * / st - IZR j)%R with ((a - IZR j * st) / st)%R by (field; nra);
      apply G; [nra|apply Rabs_def1; nra] end.
Qed.

Lemma demapping_fs_near c (pn : bool) (sig : nda R) (syms : list nat) : length (data sig) = size (shape sig) ->
  Forall2 (fun (x : R) (i : nat) => (i < length (get_levels_fs c))%nat /\
     (Rabs ((if pn then - x else x) - nth i (get_levels_fs c) 0) <
       (nth 1 (get_levels_fs c) 0 - nth 0 (get_levels_fs c) 0) / 2)%R) (data sig) syms ->
  fst (demapping_fs c pn sig) = Ok (mk_nda (shape sig) (map Z.of_nat syms)).
Proof.
  intros Hsz H. apply demapping_with_ok; auto. clear Hsz. induction H as [|x i l m [Hi Hx] _ IH]; constructor; auto.
  split; auto. apply demap_idx_fs; auto. now rewrite <- fs_length.
Qed.
Lemma fs_step c : (0 < nth 1 (get_levels_fs c) 0 - nth 0 (get_levels_fs c) 0)%R.
Proof.
  assert (Hp := rms_pos c). assert (Hinv := Rinv_0_lt_compat _ Hp). rewrite fs_eq.
  destruct c; simpl; unfold Rdiv; nra.
Qed.
Lemma map_demap_fs c pn (x : nda Z) : length (data x) = size (shape x) ->
  Forall (fun i => 0 <= i < Z.of_nat (length (get_levels c))) (data x) ->
  exists y, mapping Ropp (get_levels_fs c) None pn x = Ok y /\ shape y = shape x /\ fst (demapping_fs c pn y) = Ok x.
Proof.
  intros Hs Hx. rewrite <- fs_length in Hx. apply (map_demap_with Ropp 0%R); auto.
  - apply Ropp_involutive.
  - intros i Hi. apply demap_idx_fs; [now rewrite <- fs_length|].
    replace (_ - _)%R with 0%R by ring. rewrite Rabs_R0. assert (P := fs_step c). lra.
Qed.

(** binary64: all levels of all constellations, by computation in the kernel *)
Lemma f64_idx c i : (i < length (get_levels_f64 c))%nat ->
  demap_idx_f64 (get_levels_f64 c) (nth i (get_levels_f64 c) (fofZ 0)) = Z.of_nat i.
Proof.
  intros H. destruct c; simpl in H; destruct i as [|[|[|[|i]]]]; try lia; vm_compute; reflexivity.
Qed.
Lemma f64_length c : length (get_levels_f64 c) = length (get_levels c).
Proof. unfold get_levels_f64. apply map_length. Qed.
Lemma map_demap_f64 c pn (x : nda Z) : length (data x) = size (shape x) ->
  Forall (fun i => 0 <= i < Z.of_nat (length (get_levels c))) (data x) ->
  exists y, mapping SFopp (get_levels_f64 c) None pn x = Ok y /\ shape y = shape x /\ fst (demapping_f64 c pn y) = Ok x.
Proof.
  intros Hs Hx. rewrite <- f64_length in Hx. apply (map_demap_with SFopp (fofZ 0)); auto.
  - intros [[]|[]| |[]]; reflexivity.
  - apply f64_idx.
Qed.
(** Rounding error of the double precision levels. *)
Lemma over_sqrt a e z q : (0 < q -> 0 <= z -> 0 <= e -> 0 <= a - e -> (a - e) * (a - e) * q <= z * z -> z * z <= (a + e) * (a + e) * q -> Rabs (a - z / sqrt q) <= e)%R.
Proof.
  intros Q Z0 E0 A L U. pose proof (sqrt_lt_R0 q Q) as S0. pose proof (sqrt_sqrt q ltac:(lra)) as SS. set (r := sqrt q) in *.
  assert (H1 : ((a - e) * r <= z)%R). { apply Rsqr_incr_0; [unfold Rsqr|apply Rmult_le_pos; lra|auto]. replace ((a - e) * r * ((a - e) * r))%R with ((a - e) * (a - e) * (r * r))%R by ring. rewrite SS. exact L. }
  assert (H2 : (z <= (a + e) * r)%R). { apply Rsqr_incr_0; [unfold Rsqr|auto|apply Rmult_le_pos; lra]. replace ((a + e) * r * ((a + e) * r))%R with ((a + e) * (a + e) * (r * r))%R by ring. rewrite SS. exact U. }
  assert (X1 : (a - e <= z / r)%R) by (apply (Rmult_le_reg_r r); auto; replace (z / r * r)%R with z by (field; lra); auto).
  assert (X2 : (z / r <= a + e)%R) by (apply (Rmult_le_reg_r r); auto; replace (z / r * r)%R with z by (field; lra); auto).
  apply Rabs_le. lra.
Qed.
Lemma levels_f64_close c i : (i < length (get_levels c))%nat -> (Rabs (Q2R (f64_to_Q (nth i (get_levels_f64 c) (fofZ 0))) - nth i (get_levels_fs c) 0) <= / 2 ^ 52)%R.
Proof.
  intros H. rewrite fs_eq.
  assert (NEG : forall a z q, (Rabs (a - z / sqrt q) <= / 2 ^ 52 -> Rabs (- a - (- z) / sqrt q) <= / 2 ^ 52)%R) by (intros a z q X; replace (- a - - z / sqrt q)%R with (- (a - z / sqrt q))%R by (unfold Rdiv; ring); now rewrite Rabs_Ropp).
  assert (ZERO : forall r, (Rabs (Q2R 0 - 0 / r) <= / 2 ^ 52)%R) by (intros r; rewrite RMicromega.Q2R_0; unfold Rdiv; rewrite Rmult_0_l, Rminus_0_r, Rabs_R0; left; apply Rinv_0_lt_compat, pow_lt; lra).
  assert (QN : forall n d, Q2R (Z.neg n # d) = (- Q2R (Z.pos n # d))%R) by (intros; change (Z.neg n # d) with (- (Z.pos n # d))%Q; apply Q2R_opp).
  assert (MV : mean_sq_R (map IZR (get_levels c)) = match c with NRZ => 1 | OOK => / 2 | PAM3 => 2 / 3 | PAM4 => 5 end%R) by (destruct c; unfold mean_sq_R; cbn; lra). unfold rms. rewrite MV.
  destruct c; (destruct i as [|[|[|[|i]]]]; [..|exfalso; cbn in H; lia]); try (exfalso; cbn in H; lia); cbn [get_levels map nth]; 
   match goal with |- context [f64_to_Q ?x] => let v := eval vm_compute in (f64_to_Q x) in change (f64_to_Q x) with v end; try (apply ZERO); rewrite ?QN;
   try (change (-1)%R with (Ropp (IZR 1)) || change (-3)%R with (Ropp (IZR 3)); apply NEG); unfold Q2R; cbn [Qnum Qden]; apply over_sqrt; lra.
Qed.
