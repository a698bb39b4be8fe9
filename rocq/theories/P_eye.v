(** Proofs about the eye diagram model. *)
From Coq Require Import Reals Lra String.
From Verif Require Import Py B_list M_delay S_delay P_delay Prop_delay M_eye S_eye.
Import List.
Open Scope R_scope.

(** Counting. *)
Lemma counts_filter {A} (P : A -> Prop) f l : (forall a, f a = true <-> P a) -> counts P l (length (filter f l)).
Proof.
  intros H. induction l as [|a l IH]; cbn [filter]; [constructor|]. destruct (f a) eqn:E.
  - cbn [length]. constructor; auto. now apply H.
  - constructor; auto. intros X. apply H in X. congruence.
Qed.
Lemma counts_map {A B} (g : A -> B) (P : B -> Prop) l n : counts P (map g l) n <-> counts (fun a => P (g a)) l n.
Proof.
  revert n. induction l as [|a l IH]; intros n; cbn [map]; split; intros H; inversion H; subst; constructor; auto; now apply IH.
Qed.
Lemma counts_unique {A} (P : A -> Prop) l n m : counts P l n -> counts P l m -> n = m.
Proof. intros H. revert m. induction H; intros m' H'; inversion H'; subst; try contradiction; auto. Qed.
Lemma counts_app {A} (P : A -> Prop) l1 l2 n m : counts P l1 n -> counts P l2 m -> counts P (l1 ++ l2) (n + m).
Proof. intros H1 H2. induction H1; cbn [app Nat.add]; auto; constructor; auto. Qed.
Lemma counts_ext {A} (P Q : A -> Prop) l n : (forall a, In a l -> (P a <-> Q a)) -> counts P l n -> counts Q l n.
Proof.
  intros E H. induction H as [|a l n Ha H IH|a l n Ha H IH]; constructor.
  - apply E; cbn; auto.
  - apply IH. intros b Hb. apply E. now right.
  - intros X. apply Ha, E; cbn; auto.
  - apply IH. intros b Hb. apply E. now right.
Qed.
Lemma counts_none {A} (P : A -> Prop) l : (forall a, In a l -> ~ P a) -> counts P l 0.
Proof. induction l as [|a l IH]; intros H; constructor; [apply H; cbn; auto|apply IH; intros b Hb; apply H; now right]. Qed.
Lemma counts_le {A} (P : A -> Prop) l n : counts P l n -> (n <= length l)%nat.
Proof. induction 1; cbn [length]; lia. Qed.

(** Positions of one phase. *)
Lemma filter_none {A} (f : A -> bool) l : (forall a, In a l -> f a = false) -> filter f l = [].
Proof. induction l as [|a l IH]; intros H; auto. cbn [filter]. rewrite H by (cbn; auto). apply IH. intros b Hb. apply H. now right. Qed.
Lemma phase_block m osr c : (c < osr)%nat -> filter (fun i => i mod osr =? c)%nat (seq (m * osr) osr) = [(m * osr + c)%nat].
Proof.
  intros Hc. assert (Es : seq (m * osr) osr = (seq (m * osr) c ++ seq (m * osr + c) 1 ++ seq (m * osr + c + 1) (osr - c - 1))%list).
  { rewrite <- !seq_app. f_equal. lia. }
  rewrite Es, !filter_app.
  assert (M : forall i, (i < osr)%nat -> ((m * osr + i) mod osr = i)%nat).
  { intros i Hi. rewrite Nat.add_comm, Nat.mod_add by lia. now apply Nat.mod_small. }
  rewrite (filter_none _ (seq (m * osr) c)).
  - rewrite (filter_none _ (seq _ (osr - c - 1))).
    + cbn [seq filter app]. rewrite M by auto. rewrite Nat.eqb_refl. reflexivity.
    + intros i Hi. apply in_seq in Hi. replace i with (m * osr + (i - m * osr))%nat by lia. rewrite M by lia. apply Nat.eqb_neq. lia.
  - intros i Hi. apply in_seq in Hi. replace i with (m * osr + (i - m * osr))%nat by lia. rewrite M by lia. apply Nat.eqb_neq. lia.
Qed.
Lemma phase_positions m osr c : (c < osr)%nat -> at_phase (m * osr) osr c = map (fun r => r * osr + c)%nat (seq 0 m).
Proof.
  intros Hc. unfold at_phase. induction m as [|m IH]; auto.
  replace (S m * osr)%nat with (m * osr + osr)%nat by lia. rewrite seq_app, filter_app, IH, Nat.add_0_l, phase_block by auto.
  rewrite seq_S, map_app. reflexivity.
Qed.

(** A sample is counted in bin [k] exactly when it lies in interval [k]. *)
Lemma bin_spec fs q k x : 0 < fs -> (k < q)%nat -> in_hist (-1 * fs) fs q k x = true <-> in_interval fs q k x.
Proof.
  intros Hf Hk. unfold in_hist, hist_bin, in_interval. destruct x as [v|]; [|split; [discriminate|intros (v & E & _); discriminate]].
  assert (Hq : 0 < INR q) by (apply lt_0_INR; lia).
  set (y := (v - -1 * fs) * (INR q / (fs - -1 * fs))).
  assert (Ey : y = (v + fs) / (2 * fs) * INR q) by (unfold y; field; lra).
  assert (Ev : v = - fs + 2 * fs * (y / INR q)) by (rewrite Ey; field; lra).
  assert (Mono : forall a b, a <= b <-> - fs + 2 * fs * (a / INR q) <= - fs + 2 * fs * (b / INR q)).
  { intros a b. assert (E : forall c, c = (- fs + 2 * fs * (c / INR q) + fs) * (INR q / (2 * fs))) by (intros; field; lra).
    assert (P : 0 < INR q / (2 * fs)) by (apply Rdiv_lt_0_compat; lra). split; intros H.
    - assert (a / INR q <= b / INR q) by (unfold Rdiv; apply Rmult_le_compat_r; auto; apply Rlt_le, Rinv_0_lt_compat; auto).
      apply Rplus_le_compat_l, Rmult_le_compat_l; lra.
    - rewrite (E a), (E b). apply Rmult_le_compat_r; lra. }
  assert (MonoS : forall a b, a < b <-> - fs + 2 * fs * (a / INR q) < - fs + 2 * fs * (b / INR q)).
  { intros a b. split; intros H; apply Rnot_le_lt; intros X; apply Mono in X; lra. }
  assert (Eq : - fs + 2 * fs * (INR q / INR q) = fs) by (field; lra).
  assert (E0 : - fs + 2 * fs * (0 / INR q) = - fs) by (field; lra).
  assert (Lo : - fs <= v <-> 0 <= y) by (rewrite (Mono 0 y), E0, <- Ev; tauto).
  assert (Hi : v <= fs <-> y <= INR q) by (rewrite (Mono y (INR q)), Eq, <- Ev; tauto).
  assert (Ek : forall j, edge fs q j <= v <-> INR j <= y) by (intros j; unfold edge; rewrite (Mono (INR j) y), <- Ev; tauto).
  assert (ES : forall j, v < edge fs q j <-> y < INR j) by (intros j; unfold edge; rewrite (MonoS y (INR j)), <- Ev; tauto).
  assert (Ef : v = fs <-> y = INR q).
  { split; intros H; [rewrite Ey, H; field; lra|]. rewrite Ev, H. exact Eq. }
  clearbody y. destruct (base_Int_part y) as [B1 B2].
  destruct (Rle_dec (-1 * fs) v) as [H1|H1].
  2:{ split; [discriminate|]. intros (w & [= <-] & Hw & _). apply Ek in Hw. exfalso. apply H1. assert (0 <= y) by (pose proof (pos_INR k); lra). apply Lo in H. lra. }
  assert (Hy : 0 <= y) by (apply Lo; lra).
  destruct (Rle_dec v fs) as [H2|H2].
  2:{ split; [discriminate|]. intros (w & [= <-] & Hw & Hu). exfalso. apply H2, Hi. destruct Hu as [Hu|[_ Hu]]; [|apply Ef in Hu; lra].
      apply ES in Hu. assert (INR (S k) <= INR q) by (apply le_INR; lia). lra. }
  assert (Hyq : y <= INR q) by (apply Hi; auto).
  assert (I0 : (0 <= Int_part y)%Z).
  { apply Z.le_ngt. intros X. assert (IZR (Int_part y) <= -1) by (apply (IZR_le _ (-1)); lia). lra. }
  set (i := Z.to_nat (Int_part y)).
  assert (Ei : IZR (Int_part y) = INR i) by (unfold i; rewrite INR_IZR_INZ, Z2Nat.id by auto; reflexivity).
  clearbody i. rewrite Ei in *.
  assert (C1 : INR i <= y) by auto. assert (C2 : y < INR (S i)) by (rewrite S_INR; lra).
  assert (Li : (i <= q)%nat) by (apply INR_le; lra).
  rewrite Nat.eqb_eq. split.
  - intros H. exists v. split; auto. destruct (Nat.eqb_spec i q) as [Q|Q].
    + subst i. assert (y = INR q) by lra. split; [apply Ek; subst k; apply Rle_trans with (INR q); [apply le_INR; lia|lra]|]. right. split; [lia|]. now apply Ef.
    + subst k. split; [now apply Ek|]. left. now apply ES.
  - intros (w & [= <-] & Hw & Hu). apply Ek in Hw. destruct Hu as [Hu|[Hu1 Hu2]].
    + apply ES in Hu. assert (i = k).
      { apply Nat.le_antisymm; [apply Nat.lt_succ_r, INR_lt; lra|]. apply Nat.lt_succ_r, INR_lt. lra. }
      subst k. destruct (Nat.eqb_spec i q); lia.
    + apply Ef in Hu2. assert (i = q).
      { apply Nat.le_antisymm; auto. apply Nat.lt_succ_r, INR_lt. lra. }
      destruct (Nat.eqb_spec i q); lia.
Qed.
Lemma edge_mono fs q j k : 0 < fs -> (0 < q)%nat -> (j <= k)%nat -> edge fs q j <= edge fs q k.
Proof.
  intros Hf Hq H. unfold edge. apply Rplus_le_compat_l, Rmult_le_compat_l; [lra|]. unfold Rdiv. apply Rmult_le_compat_r.
  - apply Rlt_le, Rinv_0_lt_compat, lt_0_INR. lia.
  - now apply le_INR.
Qed.
Lemma edge_0 fs q : edge fs q 0 = - fs.
Proof. unfold edge. cbn [INR]. unfold Rdiv. rewrite Rmult_0_l. lra. Qed.
Lemma edge_q fs q : (0 < q)%nat -> edge fs q q = fs.
Proof. intros H. unfold edge. replace (INR q / INR q) with 1 by (field; apply not_0_INR; lia). lra. Qed.
(** Every sample in range lies in exactly one interval. *)
Lemma interval_range fs q k x : 0 < fs -> (k < q)%nat -> in_interval fs q k x -> in_range fs x.
Proof.
  intros Hf Hk (v & -> & H1 & H2). exists v. split; auto. pose proof (edge_mono fs q 0 k Hf ltac:(lia) ltac:(lia)) as M. rewrite edge_0 in M. split; [lra|].
  destruct H2 as [H2|[_ ->]]; [|lra]. pose proof (edge_mono fs q (S k) q Hf ltac:(lia) ltac:(lia)) as M2. rewrite edge_q in M2 by lia. lra.
Qed.
Lemma interval_one fs q j k x : 0 < fs -> (j < q)%nat -> (k < q)%nat -> in_interval fs q j x -> in_interval fs q k x -> j = k.
Proof.
  intros Hf Hj Hk H1 H2. apply bin_spec in H1; auto. apply bin_spec in H2; auto. unfold in_hist in H1, H2. destruct (hist_bin _ _ _ _); [|discriminate].
  apply Nat.eqb_eq in H1, H2. congruence.
Qed.
Lemma interval_some fs q x : 0 < fs -> (0 < q)%nat -> in_range fs x -> exists k, (k < q)%nat /\ in_interval fs q k x.
Proof.
  intros Hf Hq (v & -> & H1 & H2). destruct (Req_dec v fs) as [->|N].
  - exists (q - 1)%nat. split; [lia|]. exists fs. split; auto. split; [rewrite <- (edge_q fs q) at 2 by auto; apply edge_mono; auto; lia|]. right. split; [lia|auto].
  - assert (F : forall n, (n <= q)%nat -> v < edge fs q n -> exists k, (k < n)%nat /\ edge fs q k <= v < edge fs q (S k)).
    { induction n as [|n IH]; intros Hn Hv; [rewrite edge_0 in Hv; lra|]. destruct (Rlt_dec v (edge fs q n)) as [L|L].
      - destruct IH as (k & Hk & E); [lia|auto|]. exists k. split; [lia|auto].
      - exists n. split; [lia|]. split; [lra|auto]. }
    destruct (F q) as (k & Hk & E1 & E2); auto; [rewrite edge_q by auto; lra|]. exists k. split; auto. exists v. auto.
Qed.

(** The signal whose samples are folded into the eye. *)
Definition folded (s : list num) (osr_in osr_diag : nat) : res (list num) :=
  if (osr_in <? osr_diag)%nat then
    if (osr_in =? 0)%nat then Raise ZeroDivisionError else
    r <- digital_oversample s (osr_diag / osr_in) osr_in "sinc" 0 ;; (let '(u, x2, x1) := r in Ok u)
  else Ok s.
Definition column (u : list num) (osr c : nat) : list num := map (fun i => nth i u None) (at_phase (length u) osr c).
Definition bin_count (fs : R) (q : nat) (u : list num) (osr k c : nat) : nat := length (filter (in_hist (-1 * fs) fs q k) (column u osr c)).
Definition eye_row (fs : R) (q : nat) (u : list num) (osr k : nat) : list R :=
  let row := map (fun c => INR (bin_count fs q u osr k c)) (seq 0 osr) in (row ++ row)%list.
Definition out_of (lg : bool) (m : list (list R)) : list (list R) := if lg then map (map (fun v => log10 (v + 1 / 10))) m else m.

Lemma column_of_rows (u : list num) osr c : (length u mod osr = 0)%nat -> (c < osr)%nat ->
  map (fun row => nth c row None) (chunks osr u) = column u osr c.
Proof.
  intros M Hc. unfold column. pose proof (Nat.div_mod (length u) osr ltac:(lia)) as D. rewrite M in D.
  replace (length u) with (length u / osr * osr)%nat at 1 by lia. rewrite phase_positions by auto. unfold chunks. rewrite !map_map. apply map_ext_in. intros r Hr. apply in_seq in Hr.
  rewrite nth_firstn by auto. now rewrite nth_skipn.
Qed.
Lemma eye_ok s osr_in osr fs q lg u : folded s osr_in osr = Ok u -> (1 <= osr)%nat -> (length u mod osr = 0)%nat -> 0 < fs -> (1 <= q)%nat ->
  eye_diagram s osr_in osr fs q lg = Ok (out_of lg (map (eye_row fs q u osr) (seq 0 q)), linspace (-1 * fs) fs q).
Proof.
  intros F Ho M Hf Hq. unfold eye_diagram. fold (folded s osr_in osr). rewrite F. cbn [bind]. unfold reshape_rows.
  replace (osr =? 0)%nat with false by (symmetry; apply Nat.eqb_neq; lia). rewrite (proj2 (Nat.eqb_eq _ _) M). cbn [bind].
  rewrite (map_res_ok _ (fun c => map (fun k => bin_count fs q u osr k c) (seq 0 q))).
  2:{ intros c Hc. apply in_seq in Hc. rewrite column_of_rows by (auto; lia). unfold histogram. replace (q =? 0)%nat with false by (symmetry; apply Nat.eqb_neq; lia).
      destruct (Rlt_dec fs (-1 * fs)); [lra|]. destruct (Req_EM_T (-1 * fs) fs); [lra|]. reflexivity. }
  cbn [bind]. f_equal. f_equal. unfold out_of.
  assert (E : map (fun row : list R => (row ++ row)%list) (map (fun k => map (fun col : list nat => INR (nth k col 0%nat)) (map (fun c => map (fun k0 => bin_count fs q u osr k0 c) (seq 0 q)) (seq 0 osr))) (seq 0 q))
              = map (eye_row fs q u osr) (seq 0 q)).
  { rewrite map_map. apply map_ext_in. intros k Hk. apply in_seq in Hk. unfold eye_row.
    replace (map (fun col : list nat => INR (nth k col 0%nat)) _) with (map (fun c => INR (bin_count fs q u osr k c)) (seq 0 osr)); auto.
    rewrite map_map. apply map_ext. intros c. now rewrite nth_map_seq by lia. }
  rewrite E. now destruct lg.
Qed.
Lemma row_entry fs q u osr k c : (c < 2 * osr)%nat -> nth c (eye_row fs q u osr k) 0 = INR (bin_count fs q u osr k (c mod osr)).
Proof.
  intros Hc. unfold eye_row. destruct (Nat.lt_ge_cases c osr) as [L|L].
  - rewrite app_nth1 by (rewrite map_length, seq_length; auto). rewrite nth_map_seq by auto. now rewrite Nat.mod_small.
  - rewrite app_nth2 by (rewrite map_length, seq_length; auto). rewrite map_length, seq_length, nth_map_seq by lia.
    replace c with ((c - osr) + 1 * osr)%nat at 2 by lia. rewrite Nat.mod_add by lia. now rewrite Nat.mod_small by lia.
Qed.
Lemma eye_entry fs q u osr k c : (k < q)%nat -> (c < 2 * osr)%nat ->
  entry (map (eye_row fs q u osr) (seq 0 q)) k c = INR (bin_count fs q u osr k (c mod osr)).
Proof. intros Hk Hc. unfold entry. rewrite nth_map_seq by auto. now apply row_entry. Qed.
Lemma bin_count_spec fs q u osr k c : 0 < fs -> (k < q)%nat ->
  counts (fun i => in_interval fs q k (nth i u None)) (at_phase (length u) osr c) (bin_count fs q u osr k c).
Proof.
  intros Hf Hk. apply (counts_map (fun i => nth i u None) (in_interval fs q k)). apply counts_filter. intros x. now apply bin_spec.
Qed.
(** The bins of one column add up to the samples in range. *)
Lemma bins_total fs q (l : list num) : 0 < fs -> (0 < q)%nat ->
  counts (in_range fs) l (fold_right Nat.add 0%nat (map (fun k => length (filter (in_hist (-1 * fs) fs q k) l)) (seq 0 q))).
Proof.
  intros Hf Hq. induction l as [|x l IH].
  - replace (fold_right _ _ _) with 0%nat; [constructor|]. cbn [filter length]. induction (seq 0 q); auto.
  - assert (S0 : forall n, (forall k, (k < n)%nat -> in_hist (-1 * fs) fs q k x = false) ->
        fold_right Nat.add 0%nat (map (fun k => length (filter (in_hist (-1 * fs) fs q k) (x :: l))) (seq 0 n)) =
        fold_right Nat.add 0%nat (map (fun k => length (filter (in_hist (-1 * fs) fs q k) l)) (seq 0 n))).
    { intros n H. f_equal. apply map_ext_in. intros k Hk. apply in_seq in Hk. cbn [filter]. rewrite H by lia. reflexivity. }
    assert (FA : forall l1 l2, fold_right Nat.add 0%nat (l1 ++ l2) = (fold_right Nat.add 0 l1 + fold_right Nat.add 0 l2)%nat).
    { induction l1 as [|a l1 IH1]; intros l2; auto. cbn [app fold_right]. rewrite IH1. lia. }
    destruct (Rle_dec (- fs) match x with Some v => v | None => 2 * fs end) as [L|L]; [destruct (Rle_dec match x with Some v => v | None => 2 * fs end fs) as [U|U]|].
    + destruct x as [v|]; [|lra]. assert (RG : in_range fs (Some v)) by (exists v; auto). destruct (interval_some fs q (Some v) Hf Hq RG) as (j & Hj & Ij).
      replace (fold_right _ _ _) with (S (fold_right Nat.add 0%nat (map (fun k => length (filter (in_hist (-1 * fs) fs q k) l)) (seq 0 q)))); [constructor; auto|].
      assert (Es : seq 0 q = (seq 0 j ++ seq j 1 ++ seq (j + 1) (q - j - 1))%list).
      { change (seq j 1) with (seq (0 + j) 1). change (j + 1)%nat with (0 + j + 1)%nat. rewrite <- !seq_app. f_equal. lia. }
      rewrite Es, !map_app, !FA. cbn [seq map fold_right].
      assert (O : forall k, (k < q)%nat -> k <> j -> in_hist (-1 * fs) fs q k (Some v) = false).
      { intros k Hk N. apply not_true_is_false. intros X. apply N. apply bin_spec in X; auto. now apply (interval_one fs q k j (Some v)). }
      rewrite (map_ext_in (fun k => length (filter (in_hist (-1 * fs) fs q k) (Some v :: l))) (fun k => length (filter (in_hist (-1 * fs) fs q k) l)) (seq 0 j)).
      2:{ intros k Hk. apply in_seq in Hk. cbn [filter]. now rewrite O by lia. }
      rewrite (map_ext_in (fun k => length (filter (in_hist (-1 * fs) fs q k) (Some v :: l))) (fun k => length (filter (in_hist (-1 * fs) fs q k) l)) (seq (j + 1) _)).
      2:{ intros k Hk. apply in_seq in Hk. cbn [filter]. now rewrite O by lia. }
      cbn [filter]. rewrite (proj2 (bin_spec fs q j (Some v) Hf Hj) Ij). cbn [length]. lia.
    + rewrite S0; [constructor; auto; intros (v & -> & X); lra|]. intros k Hk. apply not_true_is_false. intros X. apply bin_spec in X; auto. apply interval_range in X; auto. destruct X as (v & -> & X). lra.
    + rewrite S0; [constructor; auto; intros (v & -> & X); lra|]. intros k Hk. apply not_true_is_false. intros X. apply bin_spec in X; auto. apply interval_range in X; auto. destruct X as (v & -> & X). lra.
Qed.
Lemma sum_INR l : fold_right Rplus 0 (map INR l) = INR (fold_right Nat.add 0%nat l).
Proof. induction l as [|a l IH]; auto. cbn [map fold_right]. now rewrite IH, plus_INR. Qed.
Lemma eye_column_sum fs q u osr c : (c < 2 * osr)%nat ->
  column_sum (map (eye_row fs q u osr) (seq 0 q)) c = INR (fold_right Nat.add 0%nat (map (fun k => bin_count fs q u osr k (c mod osr)) (seq 0 q))).
Proof.
  intros Hc. unfold column_sum. rewrite map_map, <- sum_INR, map_map. f_equal. apply map_ext. intros k. now rewrite row_entry.
Qed.
(** Streaming. *)
Lemma phase_app n m osr c : (0 < osr)%nat -> (n mod osr = 0)%nat -> (c < osr)%nat -> (m mod osr = 0)%nat ->
  at_phase (n + m) osr c = (at_phase n osr c ++ map (fun i => n + i)%nat (at_phase m osr c))%list.
Proof.
  intros Ho Hn Hc Hm. pose proof (Nat.div_mod n osr ltac:(lia)) as D. rewrite Hn in D. pose proof (Nat.div_mod m osr ltac:(lia)) as D2. rewrite Hm in D2.
  set (a := (n / osr)%nat) in *. set (b := (m / osr)%nat) in *. clearbody a b.
  replace (n + m)%nat with ((a + b) * osr)%nat by lia. replace n with (a * osr)%nat at 1 by lia. replace m with (b * osr)%nat by lia.
  rewrite !phase_positions by auto. rewrite seq_app, map_app. f_equal. rewrite map_map. cbn [Nat.add]. 
  apply (nth_ext_def 0%nat); [now rewrite !map_length, !seq_length|]. intros i Hi. rewrite map_length, seq_length in Hi. rewrite nth_map_seq by auto.
  rewrite (map_nth_lt _ _ _ 0%nat) by (rewrite seq_length; auto). rewrite seq_nth by auto. lia.
Qed.
Lemma bin_count_app fs q u v osr k c : (c < osr)%nat -> (length u mod osr = 0)%nat -> (length v mod osr = 0)%nat ->
  bin_count fs q (u ++ v) osr k c = (bin_count fs q u osr k c + bin_count fs q v osr k c)%nat.
Proof.
  intros Hc Hu Hv. unfold bin_count, column. rewrite app_length, phase_app by (auto; lia). rewrite map_app, filter_app, app_length. f_equal.
  - f_equal. f_equal. apply map_ext_in. intros i Hi. apply filter_In in Hi. destruct Hi as [Hi _]. apply in_seq in Hi. apply app_nth1. lia.
  - f_equal. f_equal. rewrite map_map. apply map_ext. intros i. rewrite app_nth2 by lia. f_equal. lia.
Qed.
(** Interpolation. *)
Lemma interpolated_value x order u t r : (r + order < length x)%nat ->
  row_value (dig_delay_sinc_coeffs order (INR t / INR u) true) (map Some x) r = Some (sinc_interpolation x order u t r).
Proof.
  intros Hr. unfold row_value, sinc_interpolation. assert (L : length (dig_delay_sinc_coeffs order (INR t / INR u) true) = S order) by (unfold dig_delay_sinc_coeffs; now rewrite map_length, indices_length).
  rewrite L. assert (G : forall l, (forall i, In i l -> (i <= order)%nat) ->
    nsum (map (fun i => nmul (nth i (dig_delay_sinc_coeffs order (INR t / INR u) true) (Some 0)) (nth (r + i) (map Some x) (Some 0))) l)
    = Some (fold_right Rplus 0 (map (fun i => sinc (INR i - INR (order / 2) - INR t / INR u) * nth (r + i) x 0) l))).
  { induction l as [|i l IH]; intros H; auto. cbn [map nsum fold_right]. fold (nsum (map (fun i => nmul (nth i (dig_delay_sinc_coeffs order (INR t / INR u) true) (Some 0)) (nth (r + i) (map Some x) (Some 0))) l)).
    rewrite IH by (intros j Hj; apply H; now right). assert (Hi : (i <= order)%nat) by (apply H; now left).
    unfold dig_delay_sinc_coeffs. rewrite (map_nth_lt _ _ _ 0%Z) by (rewrite indices_length; lia). rewrite (map_nth_lt _ _ _ 0) by lia. cbn [nmul nadd]. f_equal. f_equal. f_equal. f_equal.
    rewrite indices_nth by auto. unfold first_index. f_equal. rewrite plus_IZR, <- INR_IZR_INZ. 
    replace (IZR (- (Z.of_nat order / 2))) with (- INR (order / 2)); [lra|]. rewrite opp_IZR, INR_IZR_INZ. f_equal. f_equal. now rewrite Nat2Z.inj_div. }
  apply G. intros i Hi. apply in_seq in Hi. lia.
Qed.
Lemma folded_interpolated (x : list R) osr_in u : (1 <= osr_in)%nat -> (2 <= u)%nat -> (osr_in <= length x)%nat -> exists temp,
  folded (map Some x) osr_in (u * osr_in) = Ok temp /\ length temp = ((length x - osr_in) * u)%nat /\
  (forall r, (r < length x - osr_in)%nat -> nth (r * u) temp None = Some (nth (osr_in / 2 + r) x 0)) /\
  (forall r t, (r < length x - osr_in)%nat -> (1 <= t < u)%nat -> nth (r * u + t) temp None = Some (sinc_interpolation x osr_in u t r)).
Proof.
  intros Hi Hu Hl. destruct (C49_samples_kept (map Some x) u osr_in "sinc" 0) as (temp & x2 & x1 & E & Lt & _ & R0 & Rt & _); [lia|now rewrite map_length|intros X; apply map_eq_nil in X; subst x; cbn in Hl; lia|auto|].
  exists temp. rewrite map_length in *. split; [|split; [auto|split]].
  - unfold folded. replace (osr_in <? u * osr_in)%nat with true by (symmetry; apply Nat.ltb_lt; nia). replace (osr_in =? 0)%nat with false by (symmetry; apply Nat.eqb_neq; lia).
    rewrite Nat.div_mul by lia. now rewrite E.
  - intros r Hr. rewrite R0 by auto. rewrite (map_nth_lt _ _ _ 0); auto. pose proof (Nat.div_mod osr_in 2 ltac:(lia)). lia.
  - intros r t Hr Ht. destruct (Rt r t Hr Ht) as (c & Ec & _ & ->). unfold get_dd_coeffs in Ec. cbn [String.eqb Ascii.eqb Bool.eqb] in Ec. injection Ec as <-. apply interpolated_value. lia.
Qed.
