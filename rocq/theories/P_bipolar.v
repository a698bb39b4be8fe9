(** Proofs about bipolar (AMI) coding. *)
From Verif Require Import Py B_list M_aux S_aux P_aux P_map M_coding S_coding P_coding.
From Coq Require Import QArith.
Open Scope Z_scope.
Ltac Zify.zify_post_hook ::= Z.div_mod_to_equations.

(** *** Encoder *)
Definition ami (a : Z) (x : list Z) : list Z := map2 (fun b s => 1 + b * (-1) ^ s) x (map (fun v => v mod 2) (cumsum a x)).
Lemma bipolar_enc p : bits (data p) -> coding_bipolar p = Ok (mk_nda (shape p) (ami 0 (data p))).
Proof. intros H. unfold coding_bipolar. rewrite check_binary_bits by auto. reflexivity. Qed.
Lemma ami_length a x : length (ami a x) = length x.
Proof. unfold ami. rewrite map2_length, map_length, cumsum_length. lia. Qed.
Lemma ami_cons a b x : isbit b -> ami a (b :: x) = (if b =? 1 then (if a mod 2 =? 0 then 0 else 2) else 1) :: ami (a + b) x.
Proof.
  intros Hb. unfold ami. cbn [cumsum map map2]. f_equal.
  destruct Hb as [->| ->]; cbn [Z.eqb Pos.eqb]; [lia|].
  destruct (a mod 2 =? 0) eqn:E; [apply Z.eqb_eq in E|apply Z.eqb_neq in E].
  - replace ((a + 1) mod 2) with 1 by lia. reflexivity.
  - replace ((a + 1) mod 2) with 0 by lia. reflexivity.
Qed.
Lemma pow_m1 n : 0 <= n -> (-1) ^ (n mod 2) = if Z.even n then 1 else -1.
Proof.
  intros H. rewrite Zmod_even. destruct (Z.even n); reflexivity.
Qed.
Lemma ami_nth x i : bits x -> (i < length x)%nat -> nth i (ami 0 x) 0 =
  if nth i x 0 =? 1 then (if Nat.even (ones x (S i)) then 2 else 0) else 1.
Proof.
  intros Hb Hi. unfold ami. rewrite (map2_nth _ _ _ _ 0 0) by (rewrite ?map_length, ?cumsum_length; auto).
  rewrite (map_nth_lt _ _ _ 0) by (now rewrite cumsum_length). rewrite cumsum_nth by auto. rewrite Z.add_0_l.
  rewrite <- ones_sum by auto. rewrite pow_m1 by lia.
  assert (E : Z.even (Z.of_nat (ones x (S i))) = Nat.even (ones x (S i))).
  { set (n := ones x (S i)). clearbody n. destruct (Nat.Even_or_Odd n) as [[k ->]|[k ->]].
    - rewrite even_double. apply Z.even_spec. exists (Z.of_nat k). lia.
    - rewrite Nat.even_add, even_double. cbn [Nat.even eqb].
      rewrite Nat2Z.inj_add, Z.even_add, Nat2Z.inj_mul, Z.even_mul. reflexivity. }
  rewrite E. assert (B := bits_nth x i Hb). destruct B as [B|B]; rewrite B; cbn [Z.eqb Pos.eqb]; [lia|].
  destruct (Nat.even (ones x (S i))); reflexivity.
Qed.
Lemma ami_decode a x : bits x -> map (fun v => Z.abs (v - 1)) (ami a x) = x.
Proof.
  intros H. revert a; induction H as [|b x Hb _ IH]; intros a; auto. rewrite ami_cons by auto. cbn [map]. rewrite IH. f_equal.
  destruct Hb as [->| ->]; cbn [Z.eqb Pos.eqb]; auto. destruct (a mod 2 =? 0); reflexivity.
Qed.

(** Consecutive marks are opposite. *)
Fixpoint alt (s : Z) (l : list Z) : Prop := match l with [] => True | v :: l' => v = s /\ alt (- s) l' end.
Lemma marks_app u v : marks (u ++ v) = marks u ++ marks v.
Proof. unfold marks. now rewrite map_app, filter_app. Qed.
Lemma marks_cons a u : marks (a :: u) = (if a =? 1 then [] else [a - 1]) ++ marks u.
Proof. unfold marks. cbn [map filter]. destruct (a =? 1) eqn:E; [apply Z.eqb_eq in E; subst; reflexivity|].
  apply Z.eqb_neq in E. replace (a - 1 =? 0) with false by (symmetry; apply Z.eqb_neq; lia). reflexivity. Qed.
Lemma ami_alt a x : bits x -> alt (if a mod 2 =? 0 then -1 else 1) (marks (ami a x)).
Proof.
  intros H. revert a; induction H as [|b x Hb _ IH]; intros a; [exact I|]. rewrite ami_cons by auto. rewrite marks_cons.
  destruct Hb as [->| ->]; cbn [Z.eqb Pos.eqb].
  - rewrite Z.add_0_r. apply IH.
  - specialize (IH (a + 1)). destruct (a mod 2 =? 0) eqn:E; [apply Z.eqb_eq in E|apply Z.eqb_neq in E].
    + replace ((a + 1) mod 2 =? 0) with false in IH by (symmetry; apply Z.eqb_neq; lia). cbn [Z.eqb Pos.eqb]. split; [reflexivity|]. exact IH.
    + replace ((a + 1) mod 2 =? 0) with true in IH by (symmetry; apply Z.eqb_eq; lia). cbn [Z.eqb Pos.eqb]. split; [reflexivity|]. exact IH.
Qed.
Lemma alt_adj l : forall s U a b W, alt s l -> l = U ++ a :: b :: W -> b = - a.
Proof.
  induction l as [|v l IH]; intros s U a b W H E; [destruct U; discriminate|]. destruct U.
  - cbn [app] in E. inversion E; subst. destruct H as [-> [H _]]. auto.
  - cbn [app] in E. inversion E; subst. destruct H as [_ H]. eapply IH; eauto.
Qed.
Lemma alt_pm s l : s = 1 \/ s = -1 -> alt s l -> Forall (fun v => v = 1 \/ v = -1) l.
Proof. revert s; induction l; simpl; intros s Hs H; constructor; destruct H; subst; auto. apply (IHl (- s)); auto. destruct Hs; subst; auto. Qed.

(** *** Error-detecting decoder *)
Lemma set_nth_length {A} i (x : A) l : length (set_nth i x l) = length l.
Proof.
  unfold set_nth. rewrite app_length, firstn_length. assert (H := skipn_length i l).
  destruct (skipn i l); simpl in *; lia.
Qed.
Lemma set_nth_nth {A} (d : A) i x l k : (i < length l)%nat -> nth k (set_nth i x l) d = if (k =? i)%nat then x else nth k l d.
Proof.
  revert i k; induction l as [|a l IH]; intros i k H; simpl in H; [lia|]. destruct i.
  - destruct k; reflexivity.
  - unfold set_nth. cbn [firstn skipn app]. fold (set_nth i x l). destruct k; [reflexivity|]. cbn [nth Nat.eqb]. apply IH. lia.
Qed.

Section loop.
Variables (locs : list nat) (v : list Z) (N : nat).
Hypothesis Hlen : length locs = length v.
Hypothesis Hnd : NoDup locs.
Hypothesis Hlt : Forall (fun i => (i < N)%nat) locs.
Hypothesis Hpm : Forall (fun x => x = 1 \/ x = -1) v.
Definition vv j := nth j v 0.
Definition firstrun j : bool := forallb (Z.eqb (vv j)) (firstn j v).
Definition sg j : Z := if firstrun j then 1 else vv j.
Definition flg k j : bool := ((0 <? j)%nat && (j <=? k)%nat && (vv (j - 1) =? vv j)) || ((j + 1 <=? k)%nat && (vv (j + 1) =? vv j)).
Definition inv k (dec0 dec : list Q) : Prop := length dec = N /\
  (forall j, (j < length v)%nat -> nth (nth j locs 0%nat) dec 0%Q = if flg k j then (sg j # 2)%Q else nth (nth j locs 0%nat) dec0 0%Q) /\
  (forall i, ~ In i locs -> nth i dec 0%Q = nth i dec0 0%Q).
Lemma vv_pm j : (j < length v)%nat -> vv j = 1 \/ vv j = -1.
Proof. intros H. unfold vv. now apply (Forall_nth_lt _ v j 0 Hpm). Qed.
Lemma locs_lt j : (j < length v)%nat -> (nth j locs 0 < N)%nat.
Proof. intros H. apply (Forall_nth_lt _ locs j 0%nat Hlt). lia. Qed.
Lemma locs_inj i j : (i < length v)%nat -> (j < length v)%nat -> nth i locs 0%nat = nth j locs 0%nat -> i = j.
Proof. intros. eapply (proj1 (NoDup_nth locs 0%nat)); eauto; lia. Qed.
Lemma firstn_S_vv j : (j < length v)%nat -> firstn (S j) v = firstn j v ++ [vv j].
Proof.
  unfold vv. clear. revert j; induction v as [|a l IH]; simpl; intros j H; [lia|]. destruct j; [reflexivity|].
  cbn [firstn app nth]. f_equal. apply IH. lia.
Qed.
Lemma firstrun_S j : (S j < length v)%nat -> firstrun (S j) = (vv (S j) =? vv j) && firstrun j.
Proof.
  intros H. unfold firstrun. rewrite firstn_S_vv by lia. rewrite forallb_app. cbn [forallb]. rewrite andb_true_r.
  rewrite andb_comm. destruct (vv (S j) =? vv j) eqn:E; auto. apply Z.eqb_eq in E. now rewrite E.
Qed.
Lemma flg_stable k j : (j < length v)%nat -> j <> k -> j <> S k -> flg (S k) j = flg k j.
Proof.
  intros Hj H1 H2. unfold flg. replace (j <=? S k)%nat with (j <=? k)%nat.
  2:{ destruct (j <=? k)%nat eqn:A, (j <=? S k)%nat eqn:B; auto; (apply Nat.leb_le in A || apply Nat.leb_gt in A); (apply Nat.leb_le in B || apply Nat.leb_gt in B); lia. }
  replace (j + 1 <=? S k)%nat with (j + 1 <=? k)%nat; auto.
  destruct (j + 1 <=? k)%nat eqn:A, (j + 1 <=? S k)%nat eqn:B; auto; (apply Nat.leb_le in A || apply Nat.leb_gt in A); (apply Nat.leb_le in B || apply Nat.leb_gt in B); lia.
Qed.
Lemma step_inv dec0 dec k : (S k < length v)%nat -> inv k dec0 dec ->
  exists dec', bipolar_step locs (dec, sg k) (S k, vv (S k) - vv k) = (dec', sg (S k)) /\ inv (S k) dec0 dec'.
Proof.
  intros Hk (L & Hin & Hout). unfold bipolar_step. assert (P1 := vv_pm (S k) Hk). assert (P0 := vv_pm k ltac:(lia)).
  assert (Hsg : Qred (Z.sgn (sg k) # 2) = (sg k # 2)).
  { unfold sg. destruct (firstrun k); [reflexivity|]. destruct P0 as [-> | ->]; reflexivity. }
  destruct (vv (S k) - vv k =? 0) eqn:E; [apply Z.eqb_eq in E|apply Z.eqb_neq in E].
  - rewrite Hsg. replace (S k - 1)%nat with k by lia.
    assert (Sg : sg (S k) = sg k).
    { unfold sg. rewrite firstrun_S by auto. replace (vv (S k)) with (vv k) by lia. rewrite Z.eqb_refl. reflexivity. }
    eexists. rewrite Sg. split; [reflexivity|]. split; [now rewrite !set_nth_length|]. split.
    + intros j Hj. rewrite !set_nth_nth by (rewrite ?set_nth_length, L; apply locs_lt; lia).
      destruct (nth j locs 0 =? nth k locs 0)%nat eqn:E1.
      * apply Nat.eqb_eq in E1. apply locs_inj in E1; try lia. subst j.
        replace (flg (S k) k) with true; auto. symmetry. unfold flg. apply orb_true_iff. right.
        rewrite Nat.add_1_r, Nat.leb_refl. cbn [andb]. apply Z.eqb_eq. lia.
      * destruct (nth j locs 0 =? nth (S k) locs 0)%nat eqn:E2.
        -- apply Nat.eqb_eq in E2. apply locs_inj in E2; try lia. subst j. rewrite Sg.
           replace (flg (S k) (S k)) with true; auto. symmetry. unfold flg. apply orb_true_iff. left.
           rewrite Nat.leb_refl. replace (S k - 1)%nat with k by lia. cbn [Nat.ltb Nat.leb andb]. apply Z.eqb_eq. lia.
        -- rewrite flg_stable; auto.
           ++ intros ->. rewrite Nat.eqb_refl in E1. discriminate.
           ++ intros ->. rewrite Nat.eqb_refl in E2. discriminate.
    + intros i Hi. rewrite !set_nth_nth by (rewrite ?set_nth_length, L; apply locs_lt; lia).
      replace (i =? nth k locs 0)%nat with false.
      2:{ symmetry. apply Nat.eqb_neq. intros ->. apply Hi. apply nth_In. lia. }
      replace (i =? nth (S k) locs 0)%nat with false; auto.
      symmetry. apply Nat.eqb_neq. intros ->. apply Hi. apply nth_In. lia.
  - assert (Sg : Z.sgn (vv (S k) - vv k) = sg (S k)).
    { unfold sg. rewrite firstrun_S by auto. replace (vv (S k) =? vv k) with false by (symmetry; apply Z.eqb_neq; lia). cbn [andb].
      destruct P1 as [Q1|Q1], P0 as [Q0|Q0]; rewrite ?Q1, ?Q0 in *; try reflexivity; lia. }
    exists dec. rewrite Sg. split; auto. split; auto. split; auto. intros j Hj. rewrite Hin by auto.
    destruct (Nat.eq_dec j k) as [->|N1]; [|destruct (Nat.eq_dec j (S k)) as [->|N2]; [|now rewrite flg_stable]].
    + replace (flg (S k) k) with (flg k k); auto. unfold flg. rewrite Nat.add_1_r.
      rewrite (Nat.leb_refl (S k)), (Nat.leb_refl k). replace (k <=? S k)%nat with true by (symmetry; apply Nat.leb_le; lia).
      replace (S k <=? k)%nat with false by (symmetry; apply Nat.leb_gt; lia). replace (vv (S k) =? vv k) with false by (symmetry; apply Z.eqb_neq; lia).
      reflexivity.
    + replace (flg (S k) (S k)) with (flg k (S k)); auto. unfold flg. replace (S k - 1)%nat with k by lia.
      replace (vv k =? vv (S k)) with false by (symmetry; apply Z.eqb_neq; lia). rewrite !andb_false_r. cbn [orb].
      replace (S k + 1 <=? k)%nat with false by (symmetry; apply Nat.leb_gt; lia).
      replace (S k + 1 <=? S k)%nat with false by (symmetry; apply Nat.leb_gt; lia). reflexivity.
Qed.
Lemma loop_inv dec0 m : forall k dec, (k + m < length v)%nat -> inv k dec0 dec ->
  exists dec', fold_left (bipolar_step locs) (combine (seq (S k) m) (map (fun j => vv (S j) - vv j) (seq k m))) (dec, sg k)
     = (dec', sg (k + m)) /\ inv (k + m) dec0 dec'.
Proof.
  induction m; intros k dec Hk Hi.
  - exists dec. rewrite Nat.add_0_r. auto.
  - cbn [seq map combine fold_left]. destruct (step_inv dec0 dec k ltac:(lia) Hi) as (d1 & E1 & I1). rewrite E1.
    destruct (IHm (S k) d1 ltac:(lia) I1) as (d2 & E2 & I2). exists d2. rewrite E2. rewrite Nat.add_succ_r. cbn [Nat.add] in *. auto.
Qed.
Lemma loop_total dec0 : v <> [] -> length dec0 = N ->
  exists dec', fst (fold_left (bipolar_step locs) (combine (seq 0 (length (1 :: np_diff v))) (1 :: np_diff v)) (dec0, 1)) = dec' /\
    inv (length v - 1) dec0 dec'.
Proof.
  intros Hv L. assert (0 < length v)%nat by (destruct v; simpl; [congruence|lia]).
  cbn [length seq combine fold_left]. unfold bipolar_step at 2. cbn [Z.eqb].
  change (Z.sgn 1) with (sg 0).
  assert (I0 : inv 0 dec0 dec0).
  { split; auto. split; auto. intros j Hj. replace (flg 0 j) with false; auto. unfold flg.
    destruct (0 <? j)%nat eqn:A; cbn [andb orb].
    - apply Nat.ltb_lt in A. replace (j <=? 0)%nat with false by (symmetry; apply Nat.leb_gt; lia).
      replace (j + 1 <=? 0)%nat with false by (symmetry; apply Nat.leb_gt; lia). reflexivity.
    - replace (j + 1 <=? 0)%nat with false by (symmetry; apply Nat.leb_gt; lia). reflexivity. }
  destruct (loop_inv dec0 (length v - 1) 0 dec0 ltac:(lia) I0) as (d & E & I1). exists d. split; auto.
  replace (np_diff v) with (map (fun j => vv (S j) - vv j) (seq 0 (length v - 1))).
  - rewrite map_length, seq_length. rewrite E. reflexivity.
  - apply (nth_ext_def 0); rewrite map_length, seq_length.
    + now rewrite np_diff_length.
    + intros i Hi. rewrite nth_map_seq by auto. rewrite np_diff_nth by lia. unfold vv. cbn [Nat.add]. now rewrite Nat.add_1_r.
Qed.
End loop.

Definition nz (y : list Z) (i : nat) : bool := negb (nth i (map (fun v => v - 1) y) 0 =? 0).
Lemma locs_vals (y : list Z) : map (fun i => nth i (map (fun v => v - 1) y) 0) (filter (nz y) (seq 0 (length y))) = marks y.
Proof.
  unfold marks, nz. rewrite <- (map_length (fun v => v - 1) y). generalize (map (fun v => v - 1) y). clear. intros l.
  induction l as [|a l IH] using rev_ind; auto. rewrite app_length. cbn [length]. rewrite Nat.add_1_r, seq_S. cbn [Nat.add].
  rewrite !filter_app. rewrite map_app. cbn [filter]. rewrite nth_middle. 
  rewrite <- IH. f_equal.
  - rewrite (filter_ext_in _ (fun i => negb (nth i l 0 =? 0))).
    + apply map_ext_in. intros i Hi. apply filter_In in Hi. destruct Hi as [Hi _]. apply in_seq in Hi. apply app_nth1. lia.
    + intros i Hi. apply in_seq in Hi. now rewrite app_nth1 by lia.
  - destruct (negb (a =? 0)); auto. cbn [map]. now rewrite nth_middle.
Qed.
Lemma marks_pm y : Forall (fun v => v = 0 \/ v = 1 \/ v = 2) y -> Forall (fun x => x = 1 \/ x = -1) (marks y).
Proof.
  intros H. apply Forall_forall. intros x Hx. unfold marks in Hx. apply filter_In in Hx. destruct Hx as [Hx Hn].
  apply in_map_iff in Hx. destruct Hx as [v [<- Hv]]. rewrite Forall_forall in H. apply negb_true_iff, Z.eqb_neq in Hn.
  specialize (H v Hv). lia.
Qed.
Lemma split_at {A} (d : A) (y : list A) i : (i < length y)%nat -> y = firstn i y ++ nth i y d :: skipn (S i) y.
Proof.
  revert i; induction y as [|a y IH]; simpl; intros i H; [lia|]. destruct i; [reflexivity|]. cbn [firstn app nth]. f_equal. apply IH. lia.
Qed.
Lemma locs_count (y : list Z) i : (i <= length y)%nat ->
  length (filter (nz y) (seq 0 i)) = length (marks (firstn i y)).
Proof.
  intros H. rewrite <- locs_vals, map_length. rewrite firstn_length_le by auto.
  f_equal. apply filter_ext_in. intros j Hj. apply in_seq in Hj. unfold nz.
  rewrite !(map_nth_lt _ _ _ 0) by (rewrite ?firstn_length; lia). now rewrite nth_firstn by lia.
Qed.

Lemma detect_spec (y : list Z) : Forall (fun v => v = 0 \/ v = 1 \/ v = 2) y ->
  length (decoding_bipolar_detect y) = length y /\
  forall i, (i < length y)%nat -> nth i (decoding_bipolar_detect y) 0%Q =
    if violates y i then ((if in_first_run y i then 1 else nth i y 1 - 1)%Z # 2)%Q
    else inject_Z (Z.abs (nth i y 1 - 1)).
Proof.
  intros Hy. set (locs := filter (nz y) (seq 0 (length y))). set (dec0 := map (fun v => inject_Z (Z.abs (v - 1))) y).
  assert (EV : map (fun i => nth i (map (fun v => v - 1) y) 0) locs = marks y) by apply locs_vals.
  assert (ED : decoding_bipolar_detect y = fst (fold_left (bipolar_step locs) (combine (seq 0 (length (1 :: np_diff (marks y)))) (1 :: np_diff (marks y))) (dec0, 1))).
  { rewrite <- EV. reflexivity. }
  set (D := decoding_bipolar_detect y) in *. clearbody D.
  assert (Ld : length dec0 = length y) by (unfold dec0; now rewrite map_length).
  assert (Hlen : length locs = length (marks y)) by (rewrite <- EV, map_length; reflexivity).
  assert (Hnd : NoDup locs) by (apply NoDup_filter, seq_NoDup).
  assert (Hlt : Forall (fun i => (i < length y)%nat) locs).
  { apply Forall_forall. intros i Hi. apply filter_In in Hi. destruct Hi as [Hi _]. apply in_seq in Hi. lia. }
  assert (Hpm := marks_pm y Hy).
  assert (N0 : forall i, (i < length y)%nat -> nth i dec0 0%Q = inject_Z (Z.abs (nth i y 1 - 1))).
  { intros i Hi. unfold dec0. now rewrite (map_nth_lt _ _ _ 1) by auto. }
  assert (Z0 : forall i, (i < length y)%nat -> In i locs <-> nth i y 1 - 1 <> 0).
  { intros i Hi. unfold locs. rewrite filter_In. unfold nz. rewrite (map_nth_lt _ _ _ 1) by auto.
    rewrite negb_true_iff, Z.eqb_neq. split; [tauto|]. split; auto. apply in_seq. lia. }
  destruct (marks y) as [|m0 ms] eqn:Em.
  - (* no marks *)
    cbn in ED. rewrite ED. split; auto. intros i Hi. rewrite N0 by auto.
    assert (E0 : nth i y 1 - 1 = 0).
    { destruct (Z.eq_dec (nth i y 1 - 1) 0) as [|n]; auto. exfalso. apply Z0 in n; auto. destruct locs; [destruct n|discriminate]. }
    unfold violates. rewrite E0. reflexivity.
  - rewrite <- Em in *.
    destruct (loop_total locs (marks y) (length y) Hlen Hnd Hlt Hpm dec0 ltac:(rewrite Em; discriminate) Ld) as (d & E & Li & Hin & Hout).
    rewrite E in ED. subst D. split; auto. intros i Hi.
    destruct (Z.eq_dec (nth i y 1 - 1) 0) as [e|n].
    + rewrite Hout by (rewrite Z0; auto). rewrite N0 by auto. unfold violates. rewrite e. reflexivity.
    + (* a mark: locate it *)
      set (j := length (marks (firstn i y))).
      assert (Sy := split_at 1 y i Hi). set (s := nth i y 1 - 1) in *.
      assert (Mi : marks y = marks (firstn i y) ++ s :: marks (skipn (S i) y)).
      { rewrite Sy at 1. rewrite marks_app, marks_cons. replace (nth i y 1 =? 1) with false by (symmetry; apply Z.eqb_neq; lia). reflexivity. }
      assert (Li' : nth j locs 0%nat = i).
      { unfold locs. replace (length y) with (i + (length y - i))%nat by lia. rewrite seq_app, filter_app. cbn [Nat.add].
        replace (length y - i)%nat with (S (length y - i - 1)) by lia. cbn [seq filter].
        assert (En : nz y i = true). { unfold nz. rewrite (map_nth_lt _ _ _ 1) by auto. fold s. apply negb_true_iff, Z.eqb_neq. auto. }
        rewrite En. assert (Lc := locs_count y i ltac:(lia)). fold j in Lc. rewrite <- Lc. apply nth_middle. }
      assert (Hj : (j < length (marks y))%nat) by (rewrite Mi, app_length; simpl; unfold j; lia).
      specialize (Hin j Hj). rewrite Li' in Hin. rewrite Hin, N0 by auto.
      assert (Ej : vv (marks y) j = s) by (unfold vv; rewrite Mi; unfold j; apply nth_middle).
      assert (Ef : firstn j (marks y) = marks (firstn i y)).
      { rewrite Mi. unfold j. rewrite firstn_app, firstn_all, Nat.sub_diag. cbn [firstn]. apply app_nil_r. }
      assert (Esg : sg (marks y) j = if in_first_run y i then 1 else s).
      { unfold sg, firstrun. rewrite Ej, Ef. reflexivity. }
      rewrite Esg.
      assert (Efl : flg (marks y) (length (marks y) - 1) j = violates y i).
      { unfold flg, violates. fold s. rewrite Ej. replace (s =? 0) with false by (symmetry; apply Z.eqb_neq; auto). cbn [negb andb].
        replace (j <=? length (marks y) - 1)%nat with true by (symmetry; apply Nat.leb_le; lia). rewrite andb_true_r. f_equal.
        - unfold prev_mark. destruct (marks (firstn i y)) as [|z l _] eqn:Ep using rev_ind.
          + unfold j. reflexivity.
          + rewrite rev_app_distr. cbn [rev app hd_error same_mark].
            assert (Ejl : j = S (length l)) by (unfold j; rewrite app_length; simpl; lia). rewrite Ejl.
            cbn [Nat.ltb Nat.leb andb]. replace (S (length l) - 1)%nat with (length l) by lia.
            unfold vv. rewrite Mi, <- app_assoc. cbn [app]. now rewrite nth_middle.
        - unfold next_mark. assert (Lm : length (marks y) = (j + 1 + length (marks (skipn (S i) y)))%nat) by (rewrite Mi, app_length; simpl; unfold j; lia).
          destruct (marks (skipn (S i) y)) as [|z l] eqn:Ep.
          + cbn [length] in Lm. replace (j + 1 <=? length (marks y) - 1)%nat with false by (symmetry; apply Nat.leb_gt; lia). reflexivity.
          + cbn [length] in Lm. replace (j + 1 <=? length (marks y) - 1)%nat with true by (symmetry; apply Nat.leb_le; lia). cbn [andb hd_error same_mark].
            f_equal. unfold vv. rewrite Mi. replace (marks (firstn i y) ++ s :: z :: l) with ((marks (firstn i y) ++ [s]) ++ z :: l) by (rewrite <- app_assoc; reflexivity).
            replace (j + 1)%nat with (length (marks (firstn i y) ++ [s])) by (rewrite app_length; simpl; unfold j; lia). apply nth_middle. }
      rewrite Efl. reflexivity.
Qed.

(** A legal line never violates the rule. *)
Lemma alt_no_violation y s : Forall (fun v => v = 0 \/ v = 1 \/ v = 2) y -> alt s (marks y) -> forall i, (i < length y)%nat -> violates y i = false.
Proof.
  intros Hy Ha i Hi. unfold violates. set (t := nth i y 1 - 1). destruct (t =? 0) eqn:Et; auto. apply Z.eqb_neq in Et. cbn [negb andb].
  assert (Sy := split_at 1 y i Hi).
  assert (Mi : marks y = marks (firstn i y) ++ t :: marks (skipn (S i) y)).
  { rewrite Sy at 1. rewrite marks_app, marks_cons. replace (nth i y 1 =? 1) with false by (symmetry; apply Z.eqb_neq; lia). reflexivity. }
  apply orb_false_iff. split.
  - unfold prev_mark. destruct (marks (firstn i y)) as [|z l _] eqn:Ep using rev_ind; auto.
    rewrite rev_app_distr. cbn [rev app hd_error same_mark]. apply Z.eqb_neq. rewrite <- app_assoc in Mi.
    cbn [app] in Mi. assert (t = - z) by (exact (alt_adj _ s _ _ _ _ Ha Mi)). lia.
  - unfold next_mark. destruct (marks (skipn (S i) y)) as [|z l] eqn:Ep; auto. cbn [hd_error same_mark]. apply Z.eqb_neq.
    assert (z = - t) by (exact (alt_adj _ s _ _ _ _ Ha Mi)). lia.
Qed.
Lemma ami_tern a x : bits x -> Forall (fun v => v = 0 \/ v = 1 \/ v = 2) (ami a x).
Proof.
  intros H. revert a; induction H as [|b x Hb _ IH]; intros a; [constructor|]. rewrite ami_cons by auto. constructor; auto.
  destruct (b =? 1); auto. destruct (a mod 2 =? 0); auto.
Qed.
Lemma detect_roundtrip x : bits x -> decoding_bipolar_detect (ami 0 x) = map inject_Z x.
Proof.
  intros H. destruct (detect_spec (ami 0 x) (ami_tern 0 x H)) as [L N]. apply (nth_ext_def 0%Q).
  - now rewrite L, ami_length, map_length.
  - rewrite L. intros i Hi. rewrite N by auto.
    rewrite (alt_no_violation _ _ (ami_tern 0 x H) (ami_alt 0 x H)) by auto.
    rewrite ami_length in Hi. rewrite (map_nth_lt _ _ _ 0) by auto. f_equal.
    assert (E := f_equal (fun l => nth i l 0) (ami_decode 0 x H)). cbn beta in E. rewrite <- E.
    now rewrite (map_nth_lt _ _ _ 1) by (now rewrite ami_length).
Qed.

(** Two equal adjacent marks are flagged. *)
Lemma adj_violation (y : list Z) U z W : marks y = U ++ z :: z :: W -> exists i, (i < length y)%nat /\ violates y i = true.
Proof.
  revert U; induction y as [|a y IH]; intros U E; [destruct U; discriminate|].
  assert (Tail : forall U', marks y = U' ++ z :: z :: W -> exists i, (i < length (a :: y))%nat /\ violates (a :: y) i = true).
  { intros U' E'. destruct (IH U' E') as (i & Hi & V). exists (S i). split; [simpl; lia|].
    unfold violates in *. cbn [nth]. apply andb_true_iff in V. destruct V as [V1 V2]. rewrite V1. cbn [andb].
    apply orb_true_iff in V2. apply orb_true_iff. destruct V2 as [V2|V2]; [left|right; exact V2].
    unfold prev_mark in *. cbn [firstn]. rewrite marks_cons. destruct (marks (firstn i y)) as [|w l _] using rev_ind; [discriminate V2|].
    rewrite app_assoc, rev_app_distr. rewrite rev_app_distr in V2. exact V2. }
  rewrite marks_cons in E. destruct (a =? 1) eqn:Ea.
  - apply (Tail U). exact E.
  - destruct U as [|u U].
    + cbn [app] in E. inversion E as [[E1 E2]]. exists 0%nat. split; [simpl; lia|]. unfold violates. cbn [nth]. rewrite E1.
      apply Z.eqb_neq in Ea. replace (z =? 0) with false by (symmetry; apply Z.eqb_neq; lia). cbn [negb andb].
      apply orb_true_iff. right. unfold next_mark. cbn [skipn]. rewrite E2. cbn [hd_error same_mark]. apply Z.eqb_eq; lia.
    + cbn [app] in E. inversion E as [[E1 E2]]. apply (Tail U). exact E2.
Qed.
Lemma replace_at_split {A} (d : A) (p : nat) (e : A) (y : list A) : (p < length y)%nat -> replace_at p e y = firstn p y ++ e :: skipn (S p) y.
Proof.
  intros H. apply (nth_ext_def d).
  - rewrite replace_at_length, app_length, firstn_length. cbn [length]. rewrite skipn_length. lia.
  - rewrite replace_at_length. intros i Hi. rewrite replace_at_nth by auto.
    assert (Lf : length (firstn p y) = p) by (rewrite firstn_length; lia).
    destruct (i =? p)%nat eqn:E.
    + apply Nat.eqb_eq in E. subst i. rewrite <- Lf at 1. now rewrite nth_middle.
    + apply Nat.eqb_neq in E. destruct (Nat.lt_ge_cases i p).
      * rewrite app_nth1 by lia. now rewrite nth_firstn by lia.
      * rewrite app_nth2 by lia. rewrite Lf. replace (i - p)%nat with (S (i - S p)) by lia. cbn [nth]. rewrite nth_skipn. f_equal. lia.
Qed.
Lemma marks_ne_ami a x i : bits x -> (i < length x)%nat -> nth i x 0 = 1 -> nth i (ami a x) 1 <> 1.
Proof.
  intros H. revert a i; induction H as [|b x Hb _ IH]; intros a i Hi Hn; simpl in Hi; [lia|]. rewrite ami_cons by auto. destruct i.
  - cbn [nth] in *. subst b. cbn [Z.eqb Pos.eqb]. destruct (a mod 2 =? 0); lia.
  - cbn [nth] in *. apply IH; auto. lia.
Qed.
Lemma marks_nonempty l i : (i < length l)%nat -> nth i l 1 <> 1 -> marks l <> [].
Proof.
  revert i; induction l as [|a l IH]; simpl; intros i Hi Hn; [lia|]. rewrite marks_cons. destruct i.
  - cbn [nth] in Hn. apply Z.eqb_neq in Hn. rewrite Hn. discriminate.
  - cbn [nth] in Hn. intros E. apply app_eq_nil in E. destruct E as [_ E]. apply (IH i); auto. lia.
Qed.
Lemma half_ne (s v : Z) : (s # 2)%Q <> inject_Z v.
Proof. unfold inject_Z. congruence. Qed.
Lemma single_error x p e a b : bits x -> (a < p < length x)%nat -> (p < b < length x)%nat -> nth a x 0 = 1 -> nth b x 0 = 1 ->
  (e = 0 \/ e = 1 \/ e = 2) -> e <> nth p (ami 0 x) 0 ->
  exists i s, (i < length x)%nat /\ nth i (decoding_bipolar_detect (replace_at p e (ami 0 x))) 0%Q = (s # 2)%Q /\ (s = 1 \/ s = -1).
Proof.
  intros Hb Ha Hbb Na Nb He Hne. set (y := ami 0 x) in *. assert (Ly : length y = length x) by apply ami_length.
  assert (Ty := ami_tern 0 x Hb). fold y in Ty. set (y' := replace_at p e y).
  assert (Ly' : length y' = length x) by (unfold y'; rewrite replace_at_length; auto).
  assert (Ty' : Forall (fun v => v = 0 \/ v = 1 \/ v = 2) y').
  { apply Forall_forall. intros w Hw. apply (In_nth _ _ 1) in Hw. destruct Hw as [i [Hi <-]]. unfold y'. rewrite replace_at_nth by lia.
    destruct (i =? p)%nat; auto. apply (Forall_nth_lt _ _ _ _ Ty). lia. }
  assert (V : exists i, (i < length y')%nat /\ violates y' i = true).
  { assert (Alt := ami_alt 0 x Hb). fold y in Alt. change (if 0 mod 2 =? 0 then -1 else 1) with (-1) in Alt.
    assert (Pm := alt_pm (-1) _ (or_intror eq_refl) Alt).
    assert (Sy := split_at 1 y p ltac:(lia)). set (t := nth p y 1) in *.
    assert (Et : nth p y 0 = t) by (apply nth_indep; lia). rewrite Et in Hne.
    assert (My : marks y = marks (firstn p y) ++ (if t =? 1 then [] else [t - 1]) ++ marks (skipn (S p) y)).
    { rewrite Sy at 1. rewrite marks_app, marks_cons. reflexivity. }
    assert (My' : marks y' = marks (firstn p y) ++ (if e =? 1 then [] else [e - 1]) ++ marks (skipn (S p) y)).
    { unfold y'. rewrite (replace_at_split 1) by lia. rewrite marks_app, marks_cons. reflexivity. }
    assert (NA : marks (firstn p y) <> []).
    { apply (marks_nonempty _ a); [rewrite firstn_length; lia|]. rewrite nth_firstn by lia. apply marks_ne_ami; auto; lia. }
    assert (NB : marks (skipn (S p) y) <> []).
    { apply (marks_nonempty _ (b - S p)); [rewrite skipn_length; lia|]. rewrite nth_skipn. replace (S p + (b - S p))%nat with b by lia. apply marks_ne_ami; auto; lia. }
    destruct (exists_last NA) as [U [u EU]]. destruct (marks (skipn (S p) y)) as [|w W] eqn:EW; [congruence|]. rewrite EU in *.
    assert (Pu : u = 1 \/ u = -1). { rewrite Forall_forall in Pm. apply Pm. rewrite My. rewrite !in_app_iff. left. right. left. auto. }
    rewrite <- app_assoc in My, My'. cbn [app] in My, My'.
    assert (Tt : t = 0 \/ t = 1 \/ t = 2) by (apply (Forall_nth_lt _ _ _ _ Ty); lia).
    destruct (t =? 1) eqn:E1; [apply Z.eqb_eq in E1|apply Z.eqb_neq in E1]; cbn [app] in My.
    - assert (Ew : w = - u) by (eapply alt_adj; eauto).
      assert (E2 : e =? 1 = false) by (apply Z.eqb_neq; lia). rewrite E2 in My'. cbn [app] in My'.
      destruct (Z.eq_dec (e - 1) u) as [E3|E3].
      + rewrite E3 in My'. eapply adj_violation; eauto.
      + assert (E4 : e - 1 = w) by lia. rewrite E4 in My'. apply (adj_violation y' (U ++ [u]) w W). rewrite My', <- app_assoc. reflexivity.
    - assert (Ew : t - 1 = - u) by (eapply alt_adj; eauto).
      assert (Ew2 : w = - (t - 1)). { eapply (alt_adj _ (-1) (U ++ [u]) (t - 1) w W); eauto. rewrite My, <- app_assoc. reflexivity. }
      destruct (e =? 1) eqn:E2; [apply Z.eqb_eq in E2|apply Z.eqb_neq in E2]; cbn [app] in My'.
      + replace w with u in My' by lia. eapply adj_violation; eauto.
      + replace (e - 1) with u in My' by lia. eapply adj_violation; eauto. }
  destruct V as (i & Hi & V). destruct (detect_spec y' Ty') as [_ N]. exists i. rewrite N, V by auto. eexists. split; [lia|]. split; [reflexivity|].
  destruct (in_first_run y' i); auto. unfold violates in V. apply andb_true_iff in V. destruct V as [V _]. apply negb_true_iff, Z.eqb_neq in V.
  assert (T := Forall_nth_lt _ _ i 1 Ty' Hi). cbn beta in T. lia.
Qed.
