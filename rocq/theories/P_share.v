(** Proofs about receivers that share their taps. *)
From Coq Require Import String Lia.
From Verif Require Import Py PyQ B_list B_qc M_aux M_symbol M_slicer M_filter M_lms M_estim M_sim M_rxloop S_rxloop P_rxloop M_share S_share.
From Coq Require Import Lia.
Import List ListNotations.
Open Scope Z_scope.

(** *** The store *)
Lemma hset_length h : forall p c, length (hset h p c) = length h.
Proof. induction h as [|x h IH]; intros [|p] c; cbn; auto. Qed.
Lemma hset_same h : forall p c, (p < length h)%nat -> nth_error (hset h p c) p = Some c.
Proof. induction h as [|x h IH]; intros [|p] c H; cbn in *; try lia; auto. apply IH. lia. Qed.
Lemma hset_other h : forall p c q, q <> p -> nth_error (hset h p c) q = nth_error h q.
Proof. induction h as [|x h IH]; intros [|p] c [|q] H; cbn; auto; try congruence. Qed.
Lemma nth_error_lt {A} (l : list A) i x : nth_error l i = Some x -> (i < length l)%nat.
Proof. intros H. apply nth_error_Some. congruence. Qed.
Lemma hget_eq h h' p : nth_error h' p = nth_error h p -> hget h' p = hget h p.
Proof. unfold hget. now intros ->. Qed.
(** Which cells an in-place addition leaves alone, and what it does to the object it is applied to. *)
Definition left_alone (h h' : heap) (p : nat) : Prop :=
  (length h <= length h')%nat /\
  forall q c, nth_error h q = Some c -> q <> p \/ c_kind c <> KFloat -> nth_error h' q = Some c.
Lemma iadd_value h p d c : nth_error h p = Some c -> c_kind c <> KInt ->
  np_add (hget h p) d = (x <- iadd h p d ;; Ok (hget (fst x) (snd x))).
Proof.
  intros E K. unfold iadd, hget at 1. rewrite E. destruct (c_kind c) eqn:EK; [|congruence|]; destruct (np_add (c_vals c) d) as [s|e]; cbn [bind fst snd]; try reflexivity.
  - unfold hget. rewrite hset_same by (eapply nth_error_lt; eauto). reflexivity.
  - unfold hget. rewrite nth_error_app2, Nat.sub_diag by lia. reflexivity.
Qed.
Lemma iadd_store h p d h' p' : iadd h p d = Ok (h', p') ->
  left_alone h h' p /\ (exists s, nth_error h' p' = Some (mk_cell KFloat s)) /\
  exists c, nth_error h p = Some c /\ ((c_kind c = KFloat /\ p' = p) \/ (c_kind c = KList /\ p' = length h)).
Proof.
  unfold iadd. destruct (nth_error h p) as [c|] eqn:E; [|discriminate]. pose proof (nth_error_lt _ _ _ E) as L.
  destruct (c_kind c) eqn:EK; [|discriminate|]; intros H; apply bind_ok in H; destruct H as (s & _ & H); injection H as <- <-.
  - split; [|split; [exists s; apply hset_same; exact L|exists c; auto]]. split; [rewrite hset_length; lia|].
    intros q c' Q D. destruct (Nat.eq_dec q p) as [->|N]; [|now rewrite hset_other]. destruct D as [D|D]; [congruence|]. rewrite E in Q. injection Q as <-. congruence.
  - split; [|split; [exists s; rewrite nth_error_app2, Nat.sub_diag by lia; reflexivity|exists c; auto]]. split; [rewrite app_length; lia|].
    intros q c' Q _. rewrite nth_error_app1; [exact Q|eapply nth_error_lt; eauto].
Qed.

(** *** One call *)
Lemma with_taps_twice r a b c d : with_taps (with_taps r a b) c d = with_taps r c d.
Proof. reflexivity. Qed.
Lemma with_taps_same r a b : e_ffe_vec (rx_eq r) = a -> e_dfe_vec (rx_eq r) = b -> with_taps r a b = r.
Proof. intros <- <-. destruct r as [? []]. reflexivity. Qed.
Lemma view_taps h o : e_ffe_vec (rx_eq (view h o)) = hget h (ro_ffe o) /\ e_dfe_vec (rx_eq (view h o)) = hget h (ro_dfe o).
Proof. split; reflexivity. Qed.
Lemma input_taps r c r' : input_stage r c = Ok r' -> rx_eq r' = rx_eq r.
Proof. unfold input_stage. intros H. apply bind_ok in H. destruct H as (o & _ & H). injection H as <-. reflexivity. Qed.
Lemma slice_taps r r' : slice_stage r = Ok r' -> e_ffe_vec (rx_eq r') = e_ffe_vec (rx_eq r) /\ e_dfe_vec (rx_eq r') = e_dfe_vec (rx_eq r).
Proof.
  unfold slice_stage. intros H. apply bind_ok in H. destruct H as ((s & e') & E & H). apply bind_ok in H. destruct H as (o & _ & H). injection H as <-.
  apply eq_call_pre in E. cbn. tauto.
Qed.
Lemma gain_taps r r' : gain_stage r = Done (Ok r') -> rx_eq r' = rx_eq r.
Proof. intros H. apply gain_keeps in H. tauto. Qed.
Lemma cdr_taps r r' : cdr_stage r = Done (Ok r') -> rx_eq r' = rx_eq r.
Proof.
  unfold cdr_stage. destruct (rx_conv_cdr r); [|intros H; injection H as <-; reflexivity].
  intros H. apply obind_ok in H. destruct H as ([s|] & _ & H); [|discriminate]. destruct (_ =? 0); [discriminate|]. injection H as <-. reflexivity.
Qed.
Lemma finish_with_taps r a b : finish_stage (with_taps r a b) = with_taps (finish_stage r) a b.
Proof. unfold finish_stage. cbn [with_taps rx_conv_cdr rx_conv_lms]. destruct (_ && _); reflexivity. Qed.
Lemma extract_with_taps r a b : extract_data (with_taps r a b) = extract_data r.
Proof. reflexivity. Qed.

(** Objects that can be updated: not integers; and not one array under both names. *)
Definition updatable (h : heap) (p q : nat) : Prop :=
  (exists c, nth_error h p = Some c /\ c_kind c <> KInt) /\ (exists c, nth_error h q = Some c /\ c_kind c <> KInt) /\
  (p <> q \/ exists v, nth_error h p = Some (mk_cell KList v)).
Lemma lms_view f h p q r : updatable h p q \/ f = None -> e_ffe_vec (rx_eq r) = hget h p -> e_dfe_vec (rx_eq r) = hget h q ->
  lms_stage f r = (x <- share_lms f h p q r ;; let '(h, p, q, r) := x in Ok (with_taps r (hget h p) (hget h q))).
Proof.
  intros U T1 T2. unfold lms_stage, share_lms. destruct (rx_conv_lms r) eqn:EL.
  2:{ cbn [bind]. now rewrite with_taps_same. }
  destruct f as [f|]; [|reflexivity]. destruct U as [(P & Q & D)|U]; [|discriminate U]. cbv zeta.
  destruct (arange _ _ 1) as [fi|]; cbn [bind]; [|reflexivity]. destruct (arange 1 _ 1) as [di|]; cbn [bind]; [|reflexivity].
  destruct (f _ _ _ fi di) as [[[mse gf] gd]|]; cbn [bind]; [|reflexivity].
  destruct P as (c & P & PK). rewrite T1, T2, (iadd_value _ _ _ _ P PK).
  destruct (iadd h p _) as [[h1 p1]|] eqn:EI; cbn [bind fst snd]; [|reflexivity].
  destruct (iadd_store _ _ _ _ _ EI) as ((L1 & L2) & (s & F1) & c' & P' & PC). rewrite P in P'. injection P' as <-.
  destruct Q as (cq & Q & QK).
  assert (Q1 : nth_error h1 q = Some cq).
  { apply L2; [exact Q|]. destruct D as [D|(v & D)]; [left; congruence|]. destruct (Nat.eq_dec q p) as [->|]; [right|left; assumption]. rewrite D in Q. injection Q as <-. discriminate. }
  assert (G1 : hget h1 q = hget h q) by (apply hget_eq; congruence). rewrite <- G1, (iadd_value _ _ _ _ Q1 QK).
  destruct (iadd h1 q _) as [[h2 q2]|] eqn:EJ; cbn [bind fst snd]; [|reflexivity].
  destruct (iadd_store _ _ _ _ _ EJ) as ((M1 & M2) & _ & _ & _ & _).
  assert (F2 : nth_error h2 p1 = Some (mk_cell KFloat s)).
  { apply M2; [exact F1|]. left. destruct PC as [(K & ->)|(K & ->)].
    - destruct D as [D|(v & D)]; [exact D|]. rewrite D in P. injection P as <-. discriminate K.
    - pose proof (nth_error_lt _ _ _ Q). lia. }
  replace (hget h2 p1) with (hget h1 p1) by (symmetry; apply hget_eq; congruence). reflexivity.
Qed.
Lemma digital_view f h p q r : updatable h p q \/ f = None \/ rx_converge r = false -> e_ffe_vec (rx_eq r) = hget h p -> e_dfe_vec (rx_eq r) = hget h q ->
  digital_stage f r = obind (share_digital f h p q r) (fun x => let '(h, p, q, r) := x in Done (Ok (with_taps r (hget h p) (hget h q)))).
Proof.
  intros U T1 T2. unfold digital_stage, share_digital. destruct (slice_stage r) as [r1|] eqn:E1; cbn [obind]; [|reflexivity].
  destruct (slice_taps _ _ E1) as (A1 & A2). destruct (rx_converge r1) eqn:C1; cbn [obind]; [|rewrite with_taps_same by congruence; reflexivity].
  assert (U' : updatable h p q \/ f = None). { destruct U as [U|[U|U]]; auto. apply slice_keeps in E1. destruct E1 as (E1 & _). congruence. }
  destruct (gain_stage r1) as [[r2|]|] eqn:E2; cbn [obind]; try reflexivity. apply gain_taps in E2.
  destruct (cdr_stage r2) as [[r3|]|] eqn:E3; cbn [obind]; try reflexivity. apply cdr_taps in E3.
  rewrite (lms_view f h p q r3 U') by congruence. destruct (share_lms f h p q r3) as [[[[h' p'] q'] r4]|]; cbn [bind obind]; [|reflexivity].
  now rewrite finish_with_taps.
Qed.
(** With taps that can be updated, or without an update, a call does what M_rxloop.v says, on the taps the receiver sees. *)
Lemma receive_view f h o x : updatable h (ro_ffe o) (ro_dfe o) \/ f = None \/ rx_converge (ro_rx o) = false ->
  receive f (view h o) x = obind (share_receive f h o x) (fun y => let '(h', o', d) := y in Done (Ok (view h' o', d))).
Proof.
  intros U. unfold receive, share_receive. destruct (input_stage (view h o) x) as [r1|] eqn:E1; cbn [obind]; [|reflexivity].
  pose proof (input_taps _ _ _ E1) as T. apply input_keeps in E1. destruct E1 as (C1 & _). cbn [view with_taps rx_converge] in C1.
  rewrite (digital_view f h (ro_ffe o) (ro_dfe o) r1) by first [rewrite T; reflexivity | rewrite C1; exact U].
  destruct (share_digital f h (ro_ffe o) (ro_dfe o) r1) as [[[[[h' p'] q'] r2]|]|]; cbn [obind]; try reflexivity.
  rewrite extract_with_taps. destruct (extract_data r2) as [[d|]|]; cbn [obind]; reflexivity.
Qed.

(** What a call does to the store and to the names. *)
Definition rebound (h : heap) (p p' : nat) (h' : heap) : Prop :=
  p' = p \/ ((length h <= p')%nat /\ exists v, nth_error h p = Some (mk_cell KList v)).
(** Cells survive with their kind; those that are not a float array under the names [p] and [q] survive unchanged. *)
Definition store_step (h h' : heap) (p q : nat) : Prop :=
  (length h <= length h')%nat /\
  (forall a c, nth_error h a = Some c -> (a <> p /\ a <> q) \/ c_kind c <> KFloat -> nth_error h' a = Some c) /\
  (forall a c, nth_error h a = Some c -> exists c', nth_error h' a = Some c' /\ c_kind c' = c_kind c).
Lemma store_refl h p q : store_step h h p q.
Proof. split; [lia|]. split; [auto|eauto]. Qed.
Definition in_store (h : heap) (p : nat) : Prop := (p < length h)%nat.
Lemma share_lms_store f h p q r h' p' q' r' : share_lms f h p q r = Ok (h', p', q', r') -> in_store h p -> in_store h q ->
  store_step h h' p q /\ in_store h' p' /\ in_store h' q' /\ rebound h p p' h' /\ rebound h q q' h' /\ (updatable h p q -> updatable h' p' q').
Proof.
  unfold share_lms, in_store. intros H VP VQ. destruct (rx_conv_lms r).
  2:{ injection H as <- <- <- <-. unfold rebound. split; [apply store_refl|]. auto 10. }
  destruct f as [f|]; [|discriminate H]. apply bind_ok in H. destruct H as (fi & _ & H). apply bind_ok in H. destruct H as (di & _ & H).
  apply bind_ok in H. destruct H as (((m & gf) & gd) & _ & H). apply bind_ok in H. destruct H as ((h1 & p1) & E1 & H). apply bind_ok in H. destruct H as ((h2 & q2) & E2 & H).
  injection H as <- <- <- _. cbn [fst snd] in *.
  destruct (iadd_store _ _ _ _ _ E1) as ((A1 & A2) & (s1 & A3) & c1 & A4 & A5). destruct (iadd_store _ _ _ _ _ E2) as ((B1 & B2) & (s2 & B3) & c2 & B4 & B5).
  assert (KEEP : forall a c, nth_error h1 a = Some c -> exists c', nth_error h2 a = Some c' /\ c_kind c' = c_kind c).
  { intros a c E. destruct (Nat.eq_dec a q) as [->|N]; [|exists c; split; [apply B2; auto|reflexivity]]. rewrite B4 in E. injection E as <-.
    destruct B5 as [(K & ->)|(K & ->)]; [eexists; split; [exact B3|]; now rewrite K|]. exists c2. split; [|reflexivity]. apply B2; [exact B4|]. right. congruence. }
  assert (KEEP1 : forall a c, nth_error h a = Some c -> exists c', nth_error h1 a = Some c' /\ c_kind c' = c_kind c).
  { intros a c E. destruct (Nat.eq_dec a p) as [->|N]; [|exists c; split; [apply A2; auto|reflexivity]]. rewrite A4 in E. injection E as <-.
    destruct A5 as [(K & ->)|(K & ->)]; [eexists; split; [exact A3|]; now rewrite K|]. exists c1. split; [|reflexivity]. apply A2; [exact A4|]. right. congruence. }
  destruct (KEEP _ _ A3) as (cp & A3' & AK). cbn in AK.
  assert (QL : c_kind c2 = KList -> nth_error h q = Some c2).
  { intros K. destruct (nth_error h q) as [cq|] eqn:EQ; [|apply nth_error_None in EQ; lia]. destruct (KEEP1 _ _ EQ) as (c' & E' & K'). rewrite B4 in E'. injection E' as <-.
    assert (A2' : nth_error h1 q = Some cq) by (apply A2; [exact EQ|right; congruence]). congruence. }
  split; [|split; [|split; [|split; [|split]]]].
  - split; [lia|]. split.
    + intros a c E D. apply B2; [apply A2; [exact E|]|]; tauto.
    + intros a c E. destruct (KEEP1 _ _ E) as (c' & E' & K'). destruct (KEEP _ _ E') as (c'' & E'' & K''). exists c''. split; [exact E''|congruence].
  - eapply nth_error_lt; eauto.
  - eapply nth_error_lt; eauto.
  - destruct A5 as [(K & ->)|(K & ->)]; [left; reflexivity|right]. split; [lia|]. destruct c1; cbn in K; subst; eauto.
  - destruct B5 as [(K & ->)|(K & ->)]; [left; reflexivity|right]. split; [lia|]. pose proof (QL K) as E. destruct c2; cbn in K; subst; eauto.
  - intros (_ & _ & D). split; [exists cp; split; [exact A3'|congruence]|]. split; [eexists; split; [exact B3|discriminate]|]. left.
    pose proof (nth_error_lt _ _ _ A3) as LP1. destruct A5 as [(K & ->)|(K & ->)], B5 as [(K' & ->)|(K' & ->)]; try lia.
    destruct D as [D|(v & D)]; [exact D|]. rewrite A4 in D. injection D as ->. discriminate K.
Qed.
Lemma share_receive_store f h o x h' o' d : share_receive f h o x = Done (Ok (h', o', d)) -> in_store h (ro_ffe o) -> in_store h (ro_dfe o) ->
  store_step h h' (ro_ffe o) (ro_dfe o) /\ in_store h' (ro_ffe o') /\ in_store h' (ro_dfe o') /\
  rebound h (ro_ffe o) (ro_ffe o') h' /\ rebound h (ro_dfe o) (ro_dfe o') h' /\ (updatable h (ro_ffe o) (ro_dfe o) -> updatable h' (ro_ffe o') (ro_dfe o')).
Proof.
  intros H VP VQ. unfold share_receive in H. apply obind_ok in H. destruct H as (r1 & _ & H). apply obind_ok in H. destruct H as ((((h1 & p1) & q1) & r2) & E & H).
  apply obind_ok in H. destruct H as (d' & _ & H). injection H as <- <- <-. cbn [ro_ffe ro_dfe].
  unfold share_digital in E. apply obind_ok in E. destruct E as (r3 & _ & E). destruct (rx_converge r3).
  - apply obind_ok in E. destruct E as (r4 & _ & E). apply obind_ok in E. destruct E as (r5 & _ & E). apply obind_ok in E. destruct E as ((((h2 & p2) & q2) & r6) & E1 & E).
    injection E as <- <- <- _. injection E1 as E1. eapply share_lms_store; eauto.
  - injection E as <- <- <- _. unfold rebound. split; [apply store_refl|]. auto 10.
Qed.
(** Without an update the store and the names stay. *)
Lemma share_receive_quiet f h o x h' o' d : share_receive f h o x = Done (Ok (h', o', d)) -> f = None \/ rx_converge (ro_rx o) = false ->
  h' = h /\ ro_ffe o' = ro_ffe o /\ ro_dfe o' = ro_dfe o /\ (rx_converge (ro_rx o) = false -> rx_converge (ro_rx o') = false).
Proof.
  intros H Q. unfold share_receive in H. apply obind_ok in H. destruct H as (r1 & I1 & H). injection I1 as I1. apply input_keeps in I1. destruct I1 as (I1 & _).
  apply obind_ok in H. destruct H as ((((h1 & p1) & q1) & r2) & E & H).
  apply obind_ok in H. destruct H as (d' & _ & H). injection H as <- <- <-. cbn [ro_ffe ro_dfe ro_rx].
  unfold share_digital in E. apply obind_ok in E. destruct E as (r3 & S1 & E). injection S1 as S1. apply slice_keeps in S1. destruct S1 as (S1 & _).
  assert (C : rx_converge r3 = rx_converge (ro_rx o)) by (rewrite S1, I1; reflexivity). rewrite C in E.
  destruct (rx_converge (ro_rx o)).
  - destruct Q as [->|Q]; [|discriminate Q].
    apply obind_ok in E. destruct E as (r4 & _ & E). apply obind_ok in E. destruct E as (r5 & _ & E). apply obind_ok in E. destruct E as ((((h2 & p2) & q2) & r6) & E1 & E).
    injection E as <- <- <- _. injection E1 as E1. unfold share_lms in E1. destruct (rx_conv_lms r5); [discriminate E1|]. injection E1 as <- <- <- _. repeat split; auto; discriminate.
  - injection E as <- <- <- <-. repeat split; auto.
Qed.

(** *** One command *)
Lemma done_inj {A} (a b : res A) : Done a = Done b -> a = b.
Proof. congruence. Qed.
Lemma replace_length {A} (l : list A) : forall i x, length (replace l i x) = length l.
Proof. induction l as [|y l IH]; intros [|i] x; cbn; auto. Qed.
Lemma replace_same {A} (l : list A) : forall i x, (i < length l)%nat -> nth_error (replace l i x) i = Some x.
Proof. induction l as [|y l IH]; intros [|i] x H; cbn in *; try lia; auto. apply IH. lia. Qed.
Lemma replace_other {A} (l : list A) : forall i x j, j <> i -> nth_error (replace l i x) j = nth_error l j.
Proof. induction l as [|y l IH]; intros [|i] x [|j] H; cbn; auto; try congruence. Qed.
Lemma nth_error_replace {A} (l : list A) i x j y : nth_error (replace l i x) j = Some y -> (j = i /\ y = x) \/ (j <> i /\ nth_error l j = Some y).
Proof.
  destruct (Nat.eq_dec j i) as [->|N]; intros H; [left|right; rewrite replace_other in H; auto].
  split; [reflexivity|]. pose proof (nth_error_lt _ _ _ H) as L. rewrite replace_length in L. rewrite replace_same in H by exact L. congruence.
Qed.
(** The receiver a command is about. *)
Definition subject (c : cmd) : option nat := match c with New _ => None | Call i _ | Start i | SetFfe i _ | SetDfe i _ => Some i end.
Lemma concerns_other h i c : subject c <> Some i -> concerns h i c = [].
Proof. destruct c; cbn; auto; intros H; destruct (Nat.eqb_spec i0 i); congruence. Qed.
(** Receivers a command is not about stay the same object. *)
Lemma exec_other f w c w1 o i oi : exec f w c = Done (Ok (w1, o)) -> subject c <> Some i -> nth_error (w_objs w) i = Some oi ->
  nth_error (w_objs w1) i = Some oi /\ bits_of i (opt_list o) = [].
Proof.
  intros H N E. destruct c as [s|j x|j|j p|j p]; cbn [exec subject] in *.
  - destruct (nth_error (w_settings w) s); [|discriminate H]. injection H as <- <-. cbn. split; [|reflexivity]. rewrite nth_error_app1; [exact E|eapply nth_error_lt; eauto].
  - destruct (nth_error (w_objs w) j); [|discriminate H]. apply obind_ok in H. destruct H as (((h & o') & d) & _ & H). injection H as <- <-.
    assert (i <> j) by congruence. cbn [w_objs opt_list bits_of flat_map fst]. rewrite replace_other by assumption. split; [exact E|]. destruct (Nat.eqb_spec j i); [congruence|reflexivity].
  - destruct (nth_error (w_objs w) j); [|discriminate H]. injection H as <- <-. assert (i <> j) by congruence. cbn. rewrite replace_other by assumption. auto.
  - destruct (nth_error (w_objs w) j); [|discriminate H]. destruct (nth_error (w_heap w) p); [|discriminate H]. destruct (set_ffe _ _); cbn [bind] in H; [|discriminate H]. injection H as <- <-.
    assert (i <> j) by congruence. cbn. rewrite replace_other by assumption. auto.
  - destruct (nth_error (w_objs w) j); [|discriminate H]. destruct (nth_error (w_heap w) p); [|discriminate H]. destruct (set_dfe _ _); cbn [bind] in H; [|discriminate H]. injection H as <- <-.
    assert (i <> j) by congruence. cbn. rewrite replace_other by assumption. auto.
Qed.
Lemma alone_start h o : start_convergence (view h o) = view h (mk_ro (start_convergence (ro_rx o)) (ro_ffe o) (ro_dfe o)).
Proof. reflexivity. Qed.
(** Commands about a receiver do what its own history says. *)
Lemma exec_own f w c i oi : subject c = Some i -> nth_error (w_objs w) i = Some oi -> Forall (fun p => in_store (w_heap w) p) (binds (w_settings w) c) ->
  updatable (w_heap w) (ro_ffe oi) (ro_dfe oi) \/ f = None \/ rx_converge (ro_rx oi) = false ->
  forall l, (forall w1 o, exec f w c = Done (Ok (w1, o)) -> exists oi', nth_error (w_objs w1) i = Some oi' /\
     alone f (view (w_heap w) oi) (concerns (w_heap w) i c ++ l) = obind (alone f (view (w_heap w1) oi') l) (fun z => Done (Ok (fst z, bits_of i (opt_list o) ++ snd z)))) /\
  (forall z, alone f (view (w_heap w) oi) (concerns (w_heap w) i c ++ l) = Done (Ok z) -> exists w1 o, exec f w c = Done (Ok (w1, o))).
Proof.
  intros SB E B U l. destruct c as [s|j x|j|j p|j p]; cbn [subject] in SB; try discriminate SB; injection SB as ->; cbn [exec concerns binds] in *; rewrite Nat.eqb_refl; rewrite E; pose proof (nth_error_lt _ _ _ E) as L; cbn [app alone].
  - rewrite (receive_view f _ _ x U). split.
    + intros w1 o H. apply obind_ok in H. destruct H as (((h' & o') & d) & E1 & H). injection H as <- <-. rewrite E1. cbn [obind fst snd w_objs w_heap].
      exists o'. split; [apply replace_same; exact L|]. destruct (alone f (view h' o') l) as [[[r bs]|]|]; cbn [obind fst snd]; try reflexivity.
      cbn [opt_list bits_of flat_map fst snd]. rewrite Nat.eqb_refl. reflexivity.
    + intros z H. apply obind_ok in H. destruct H as (y & H & _). apply obind_ok in H. destruct H as (((h' & o') & d) & E1 & _). rewrite E1. cbn [obind]. eauto.
  - split; [|eauto]. intros w1 o H. injection H as <- <-. cbn [w_objs w_heap]. eexists. split; [apply replace_same; exact L|]. rewrite alone_start.
    destruct (alone f _ l) as [[[r bs]|]|]; cbn [obind fst snd]; reflexivity.
  - inversion B as [|? ? B1 _]; subst. destruct (nth_error (w_heap w) p) eqn:EP; [|apply nth_error_None in EP; unfold in_store in B1; lia].
    assert (K : forall e, set_ffe (rx_eq (view (w_heap w) oi)) (hget (w_heap w) p) = Ok e -> with_eq (view (w_heap w) oi) e = view (w_heap w) (mk_ro (ro_rx oi) p (ro_dfe oi))).
    { intros e. unfold set_ffe. destruct (_ =? _)%nat; [|discriminate]. intros H. injection H as <-. reflexivity. }
    split.
    + intros w1 o H. apply done_inj in H. apply bind_ok in H. destruct H as (e & ES & H). injection H as <- <-. rewrite ES. cbn [obind w_objs w_heap]. rewrite (K _ ES).
      eexists. split; [apply replace_same; exact L|]. destruct (alone f _ l) as [[[r bs]|]|]; cbn [obind fst snd]; reflexivity.
    + intros z H. apply obind_ok in H. destruct H as (e & H & _). apply done_inj in H. rewrite H. cbn [bind]. eauto.
  - inversion B as [|? ? B1 _]; subst. destruct (nth_error (w_heap w) p) eqn:EP; [|apply nth_error_None in EP; unfold in_store in B1; lia].
    assert (K : forall e, set_dfe (rx_eq (view (w_heap w) oi)) (hget (w_heap w) p) = Ok e -> with_eq (view (w_heap w) oi) e = view (w_heap w) (mk_ro (ro_rx oi) (ro_ffe oi) p)).
    { intros e. unfold set_dfe. destruct (_ =? _)%nat; [|discriminate]. intros H. injection H as <-. reflexivity. }
    split.
    + intros w1 o H. apply done_inj in H. apply bind_ok in H. destruct H as (e & ES & H). injection H as <- <-. rewrite ES. cbn [obind w_objs w_heap]. rewrite (K _ ES).
      eexists. split; [apply replace_same; exact L|]. destruct (alone f _ l) as [[[r bs]|]|]; cbn [obind fst snd]; reflexivity.
    + intros z H. apply obind_ok in H. destruct H as (e & H & _). apply done_inj in H. rewrite H. cbn [bind]. eauto.
Qed.
Lemma exec_settings f w c w1 o : exec f w c = Done (Ok (w1, o)) -> w_settings w1 = w_settings w.
Proof.
  destruct c as [s|j x|j|j p|j p]; cbn [exec]; intros H.
  - destruct (nth_error (w_settings w) s); [|discriminate H]. injection H as <- <-. reflexivity.
  - destruct (nth_error (w_objs w) j); [|discriminate H]. apply obind_ok in H. destruct H as (((h & o') & d) & _ & H). injection H as <- <-. reflexivity.
  - destruct (nth_error (w_objs w) j); [|discriminate H]. injection H as <- <-. reflexivity.
  - destruct (nth_error (w_objs w) j); [|discriminate H]. destruct (nth_error (w_heap w) p); [|discriminate H]. destruct (set_ffe _ _); cbn [bind] in H; [|discriminate H]. injection H as <- <-. reflexivity.
  - destruct (nth_error (w_objs w) j); [|discriminate H]. destruct (nth_error (w_heap w) p); [|discriminate H]. destruct (set_dfe _ _); cbn [bind] in H; [|discriminate H]. injection H as <- <-. reflexivity.
Qed.
(** The objects and the store after a command. *)
Lemma exec_store f w c l w1 o : exec f w c = Done (Ok (w1, o)) -> sound w (c :: l) ->
  (length (w_heap w) <= length (w_heap w1))%nat /\
  (forall a x, nth_error (w_heap w) a = Some x -> exists x', nth_error (w_heap w1) a = Some x' /\ c_kind x' = c_kind x /\
     (c_kind x <> KFloat \/ (forall i oi, subject c = Some i -> nth_error (w_objs w) i = Some oi -> a <> ro_ffe oi /\ a <> ro_dfe oi) -> x' = x)) /\
  (forall j oj', nth_error (w_objs w1) j = Some oj' -> in_store (w_heap w1) (ro_ffe oj') /\ in_store (w_heap w1) (ro_dfe oj') /\
     (nth_error (w_objs w) j = Some oj' \/
      (exists oj, nth_error (w_objs w) j = Some oj /\ subject c = Some j /\
         (rebound (w_heap w) (ro_ffe oj) (ro_ffe oj') (w_heap w1) \/ In (ro_ffe oj') (binds (w_settings w) c)) /\
         (rebound (w_heap w) (ro_dfe oj) (ro_dfe oj') (w_heap w1) \/ In (ro_dfe oj') (binds (w_settings w) c))) \/
      (j = length (w_objs w) /\ subject c = None /\ In (ro_ffe oj') (binds (w_settings w) c) /\ In (ro_dfe oj') (binds (w_settings w) c)))) /\
  sound w1 l.
Proof.
  intros H (SO & SC). inversion SC as [|? ? SC1 SC2]; subst. pose proof (exec_settings _ _ _ _ _ H) as SE.
  assert (OBJ : forall j oj, nth_error (w_objs w) j = Some oj -> in_store (w_heap w) (ro_ffe oj) /\ in_store (w_heap w) (ro_dfe oj)).
  { intros j oj E. rewrite Forall_forall in SO. apply SO. eapply nth_error_In; eauto. }
  cut ((length (w_heap w) <= length (w_heap w1))%nat /\
  (forall a x, nth_error (w_heap w) a = Some x -> exists x', nth_error (w_heap w1) a = Some x' /\ c_kind x' = c_kind x /\
     (c_kind x <> KFloat \/ (forall i oi, subject c = Some i -> nth_error (w_objs w) i = Some oi -> a <> ro_ffe oi /\ a <> ro_dfe oi) -> x' = x)) /\
  (forall j oj', nth_error (w_objs w1) j = Some oj' -> in_store (w_heap w1) (ro_ffe oj') /\ in_store (w_heap w1) (ro_dfe oj') /\
     (nth_error (w_objs w) j = Some oj' \/
      (exists oj, nth_error (w_objs w) j = Some oj /\ subject c = Some j /\
         (rebound (w_heap w) (ro_ffe oj) (ro_ffe oj') (w_heap w1) \/ In (ro_ffe oj') (binds (w_settings w) c)) /\
         (rebound (w_heap w) (ro_dfe oj) (ro_dfe oj') (w_heap w1) \/ In (ro_dfe oj') (binds (w_settings w) c))) \/
      (j = length (w_objs w) /\ subject c = None /\ In (ro_ffe oj') (binds (w_settings w) c) /\ In (ro_dfe oj') (binds (w_settings w) c))))).
  { intros (A & B & C). split; [exact A|]. split; [exact B|]. split; [exact C|]. split.
    - apply Forall_forall. intros oj I. apply In_nth_error in I. destruct I as (j & I). destruct (C _ _ I) as (C1 & C2 & _). auto.
    - rewrite SE. eapply Forall_impl; [|exact SC2]. intros c' F. eapply Forall_impl; [|exact F]. cbn. intros; lia. }
  unfold in_store in *. destruct c as [s|i x|i|i p|i p]; cbn [exec subject binds] in *.
  - destruct (nth_error (w_settings w) s) as [st|] eqn:ES; [|discriminate H]. injection H as <- <-. cbn [w_heap w_objs]. split; [lia|]. split; [eauto|].
    inversion SC1 as [|? ? X1 X2]; subst. inversion X2 as [|? ? X3 _]; subst. intros j oj' E. destruct (Nat.lt_ge_cases j (length (w_objs w))) as [L|L].
    + rewrite nth_error_app1 in E by exact L. destruct (OBJ _ _ E). auto.
    + rewrite nth_error_app2 in E by exact L. destruct (j - length (w_objs w))%nat as [|k] eqn:EK; cbn in E; [|destruct k; discriminate E]. injection E as <-. cbn [new_receiver ro_ffe ro_dfe].
      split; [exact X1|]. split; [exact X3|]. right; right. cbn. split; [lia|]. auto.
  - destruct (nth_error (w_objs w) i) as [oi|] eqn:EI; [|discriminate H]. apply obind_ok in H. destruct H as (((h & o') & d) & E1 & H). injection H as <- <-. cbn [w_heap w_objs].
    destruct (OBJ _ _ EI) as (V1 & V2). destruct (share_receive_store _ _ _ _ _ _ _ E1 V1 V2) as ((S1 & S2 & S3) & I1 & I2 & R1 & R2 & _).
    split; [exact S1|]. split.
    + intros a x0 EA. destruct (S3 _ _ EA) as (x' & EX & KX). exists x'. split; [exact EX|]. split; [exact KX|]. intros D.
      assert (EX2 : nth_error h a = Some x0) by (apply S2; [exact EA|]; destruct D as [D|D]; [auto|left; apply (D i oi); auto]). congruence.
    + intros j oj' E. apply nth_error_replace in E. destruct E as [(-> & ->)|(N & E)].
      * split; [exact I1|]. split; [exact I2|]. right; left. exists oi. auto.
      * destruct (OBJ _ _ E). repeat split; try (unfold in_store in *; lia). auto.
  - destruct (nth_error (w_objs w) i) as [oi|] eqn:EI; [|discriminate H]. injection H as <- <-. cbn [w_heap w_objs]. split; [lia|]. split; [eauto|].
    intros j oj' E. apply nth_error_replace in E. destruct E as [(-> & ->)|(N & E)]; cbn [ro_ffe ro_dfe].
    + destruct (OBJ _ _ EI). split; [assumption|]. split; [assumption|]. right; left. exists oi. unfold rebound. auto 10.
    + destruct (OBJ _ _ E). auto.
  - inversion SC1 as [|? ? X1 _]; subst. destruct (nth_error (w_objs w) i) as [oi|] eqn:EI; [|discriminate H]. destruct (nth_error (w_heap w) p); [|discriminate H]. destruct (set_ffe _ _); cbn [bind] in H; [|discriminate H]. injection H as <- <-.
    cbn [w_heap w_objs]. split; [lia|]. split; [eauto|]. intros j oj' E. apply nth_error_replace in E. destruct E as [(-> & ->)|(N & E)]; cbn [ro_ffe ro_dfe].
    + destruct (OBJ _ _ EI). split; [exact X1|]. split; [assumption|]. right; left. exists oi. unfold rebound. cbn. auto 10.
    + destruct (OBJ _ _ E). auto.
  - inversion SC1 as [|? ? X1 _]; subst. destruct (nth_error (w_objs w) i) as [oi|] eqn:EI; [|discriminate H]. destruct (nth_error (w_heap w) p); [|discriminate H]. destruct (set_dfe _ _); cbn [bind] in H; [|discriminate H]. injection H as <- <-.
    cbn [w_heap w_objs]. split; [lia|]. split; [eauto|]. intros j oj' E. apply nth_error_replace in E. destruct E as [(-> & ->)|(N & E)]; cbn [ro_ffe ro_dfe].
    + destruct (OBJ _ _ EI). split; [assumption|]. split; [exact X1|]. right; left. exists oi. unfold rebound. cbn. auto 10.
    + destruct (OBJ _ _ E). auto.
Qed.

(** *** Scripts *)
Lemma bits_app i a b : bits_of i (a ++ b) = bits_of i a ++ bits_of i b.
Proof. apply flat_map_app. Qed.
Lemma quiet_step f w c l w1 o : exec f w c = Done (Ok (w1, o)) -> never_adapts f w (c :: l) -> w_heap w1 = w_heap w /\ never_adapts f w1 l.
Proof.
  intros H N. unfold never_adapts in *.
  assert (Q : forall i oi, nth_error (w_objs w) i = Some oi -> f = None \/ rx_converge (ro_rx oi) = false).
  { intros i oi E. destruct N as [N|(N & _)]; [auto|]. right. rewrite Forall_forall in N. apply N. eapply nth_error_In; eauto. }
  cut (w_heap w1 = w_heap w /\ (f = None \/ forall j oj, nth_error (w_objs w1) j = Some oj -> rx_converge (ro_rx oj) = false)).
  { intros (A & B). split; [exact A|]. destruct N as [N|(N1 & N2)]; [auto|]. destruct B as [B|B]; [auto|]. right. inversion N2; subst. split; [|assumption].
    apply Forall_forall. intros oj I. apply In_nth_error in I. destruct I as (j & I). eauto. }
  assert (QQ : f = None \/ forall i oi, nth_error (w_objs w) i = Some oi -> rx_converge (ro_rx oi) = false).
  { destruct N as [N|(N & _)]; [auto|]. right. intros i oi E. rewrite Forall_forall in N. apply N. eapply nth_error_In; eauto. }
  destruct c as [s|i x|i|i p|i p]; cbn [exec] in H.
  - destruct (nth_error (w_settings w) s) as [st|]; [|discriminate H]. injection H as <- <-. cbn. split; [reflexivity|]. destruct QQ as [QQ|QQ]; [auto|]. right. intros j oj E.
    destruct (Nat.lt_ge_cases j (length (w_objs w))) as [L|L]; [rewrite nth_error_app1 in E by exact L; eauto|]. rewrite nth_error_app2 in E by exact L.
    destruct (j - length (w_objs w))%nat as [|k]; cbn in E; [|destruct k; discriminate E]. injection E as <-. reflexivity.
  - destruct (nth_error (w_objs w) i) as [oi|] eqn:EI; [|discriminate H]. apply obind_ok in H. destruct H as (((h & o') & d) & E1 & H). injection H as <- <-. cbn [w_heap w_objs].
    destruct (share_receive_quiet _ _ _ _ _ _ _ E1 (Q _ _ EI)) as (-> & _ & _ & K). split; [reflexivity|]. destruct QQ as [QQ|QQ]; [auto|]. right. intros j oj E.
    apply nth_error_replace in E. destruct E as [(-> & ->)|(_ & E)]; eauto.
  - destruct (nth_error (w_objs w) i) as [oi|] eqn:EI; [|discriminate H]. injection H as <- <-. cbn. split; [reflexivity|]. destruct N as [N|(_ & N)]; [auto|]. inversion N; contradiction.
  - destruct (nth_error (w_objs w) i) as [oi|] eqn:EI; [|discriminate H]. destruct (nth_error (w_heap w) p); [|discriminate H]. destruct (set_ffe _ _); cbn [bind] in H; [|discriminate H]. injection H as <- <-.
    cbn. split; [reflexivity|]. destruct QQ as [QQ|QQ]; [auto|]. right. intros j oj E. apply nth_error_replace in E. destruct E as [(-> & ->)|(_ & E)]; cbn; eauto.
  - destruct (nth_error (w_objs w) i) as [oi|] eqn:EI; [|discriminate H]. destruct (nth_error (w_heap w) p); [|discriminate H]. destruct (set_dfe _ _); cbn [bind] in H; [|discriminate H]. injection H as <- <-.
    cbn. split; [reflexivity|]. destruct QQ as [QQ|QQ]; [auto|]. right. intros j oj E. apply nth_error_replace in E. destruct E as [(-> & ->)|(_ & E)]; cbn; eauto.
Qed.
Lemma quiet_object f w c l i oi : never_adapts f w (c :: l) -> nth_error (w_objs w) i = Some oi -> f = None \/ rx_converge (ro_rx oi) = false.
Proof. intros [N|(N & _)] E; [auto|]. right. rewrite Forall_forall in N. apply N. eapply nth_error_In; eauto. Qed.
Lemma subject_dec c i : {subject c = Some i} + {subject c <> Some i}.
Proof. destruct (subject c) as [j|]; [destruct (Nat.eq_dec j i); [left; congruence|right; congruence]|right; discriminate]. Qed.

Lemma quiet_history f : forall script w w' outs, never_adapts f w script -> sound w script -> exec_all f w script = Done (Ok (w', outs)) ->
  w_heap w' = w_heap w /\
  forall i oi, nth_error (w_objs w) i = Some oi -> exists oi', nth_error (w_objs w') i = Some oi' /\
    alone f (view (w_heap w) oi) (own_part (w_heap w) i script) = Done (Ok (view (w_heap w) oi', bits_of i outs)).
Proof.
  induction script as [|c l IH]; intros w w' outs N S1 H; cbn [exec_all] in H.
  - injection H as <- <-. split; [reflexivity|]. intros i oi E. exists oi. auto.
  - apply obind_ok in H. destruct H as ((w1 & o) & H1 & H). apply obind_ok in H. destruct H as ((w2 & os) & H2 & H). injection H as <- <-.
    destruct (quiet_step _ _ _ _ _ _ H1 N) as (HE & N1). destruct (exec_store _ _ _ _ _ _ H1 S1) as (_ & _ & _ & S2).
    destruct (IH _ _ _ N1 S2 H2) as (HE2 & K). split; [congruence|]. intros i oi E. rewrite HE in K.
    destruct (subject_dec c i) as [SB|SB].
    + destruct S1 as (_ & SC). inversion SC as [|? ? SC1 _]; subst.
      destruct (exec_own f w c i oi SB E SC1 (or_intror (quiet_object _ _ _ _ _ _ N E)) (own_part (w_heap w) i l)) as (X & _). destruct (X _ _ H1) as (oi1 & E1 & X1).
      destruct (K _ _ E1) as (oi' & E2 & K2). exists oi'. split; [exact E2|]. unfold own_part in *. cbn [flat_map]. rewrite X1, HE, K2. cbn [obind fst snd]. rewrite bits_app. reflexivity.
    + destruct (exec_other _ _ _ _ _ _ _ H1 SB E) as (E1 & BO). destruct (K _ _ E1) as (oi' & E2 & K2). exists oi'. split; [exact E2|].
      unfold own_part in *. cbn [flat_map]. rewrite concerns_other by exact SB. cbn [app]. rewrite K2, bits_app, BO. reflexivity.
Qed.

Lemma private_updatable w script i o : private_taps w script i o -> updatable (w_heap w) (ro_ffe o) (ro_dfe o).
Proof.
  intros ((c1 & A1 & A2) & (c2 & B1 & B2) & D). split; [exists c1|split; [exists c2|exact D]]; (split; [assumption|]); destruct A2 as [A2|(A2 & _)], B2 as [B2|(B2 & _)]; congruence.
Qed.
Lemma private_step f w c l w1 o i oi : exec f w c = Done (Ok (w1, o)) -> sound w (c :: l) -> keeps_taps i c -> nth_error (w_objs w) i = Some oi -> private_taps w (c :: l) i oi ->
  exists oi', nth_error (w_objs w1) i = Some oi' /\ private_taps w1 l i oi' /\ (subject c <> Some i -> view (w_heap w1) oi' = view (w_heap w) oi).
Proof.
  intros H SD KT E PT. pose proof (exec_settings _ _ _ _ _ H) as SE. destruct (exec_store _ _ _ _ _ _ H SD) as (LEN & CELL & OBJ & SD').
  (* what is private to i now stays so, when the object is the same *)
  assert (OTHER : forall p x, nth_error (w_heap w) p = Some x -> nobody_else w (c :: l) i p -> nobody_else w1 l i p).
  { intros p x EP (A & B). pose proof (nth_error_lt _ _ _ EP) as LP. inversion B as [|? ? B1 B2]; subst. split; [|rewrite SE; exact B2].
    intros j oj' N EJ. destruct (OBJ _ _ EJ) as (_ & _ & [K|[(oj & K1 & _ & K2 & K3)|(_ & _ & K2 & K3)]]); [eauto| |].
    - destruct (A _ _ N K1) as (A1 & A2). split.
      + destruct K2 as [[->|(K2 & _)]|K2]; [exact A1|lia|intros X; rewrite X in K2; contradiction].
      + destruct K3 as [[->|(K3 & _)]|K3]; [exact A2|lia|intros X; rewrite X in K3; contradiction].
    - split; intros X; [rewrite X in K2|rewrite X in K3]; contradiction. }
  assert (SAME : forall p, private w (c :: l) i p -> private w1 l i p).
  { intros p (x & EP & D). destruct (CELL _ _ EP) as (x' & EX & KX & _). exists x'. split; [exact EX|]. rewrite KX. destruct D as [D|(D & NE)]; [auto|]. right. split; [exact D|]. eapply OTHER; eauto. }
  assert (FRESH : forall p x, nth_error (w_heap w1) p = Some x -> c_kind x <> KInt -> (length (w_heap w) <= p)%nat -> subject c = Some i -> private w1 l i p).
  { intros p x EP KX GE SB. exists x. split; [exact EP|]. destruct (c_kind x) eqn:EK; [|congruence|auto]. right. split; [reflexivity|]. destruct SD as (SO & SC). split.
    - intros j oj' N EJ. destruct (OBJ _ _ EJ) as (_ & _ & [K|[(oj & K1 & K0 & _)|(_ & K0 & _)]]); [|congruence|congruence].
      rewrite Forall_forall in SO. pose proof (SO _ (nth_error_In _ _ K)). lia.
    - rewrite SE. inversion SC as [|? ? _ SC2]; subst. eapply Forall_impl; [|exact SC2]. cbn. intros c' F I. rewrite Forall_forall in F. apply F in I. lia. }
  destruct (subject_dec c i) as [SB|SB].
  - destruct c as [s|j x|j|j p|j p]; cbn [subject] in SB; try discriminate SB; injection SB as ->; cbn [keeps_taps] in KT; try congruence.
    + pose proof (private_updatable _ _ _ _ PT) as U. destruct PT as (P1 & P2 & D).
      cbn [exec] in H. rewrite E in H. apply obind_ok in H. destruct H as (((h & o') & d) & E1 & H). injection H as <- <-. cbn [w_objs w_heap] in *.
      destruct SD as (SO & _). rewrite Forall_forall in SO. destruct (SO _ (nth_error_In _ _ E)) as (V1 & V2).
      destruct (share_receive_store _ _ _ _ _ _ _ E1 V1 V2) as (_ & _ & _ & R1 & R2 & UU). pose proof (UU U) as ((c1 & U1 & U2) & (c2 & U3 & U4) & UD).
      exists o'. split; [apply replace_same; eapply nth_error_lt; eauto|]. split; [|intros X; exfalso; apply X; reflexivity].
      split; [destruct R1 as [R1|(R1 & _)]; [rewrite R1; apply SAME; exact P1|eapply FRESH; eauto]|].
      split; [destruct R2 as [R2|(R2 & _)]; [rewrite R2; apply SAME; exact P2|eapply FRESH; eauto]|]. exact UD.
    + destruct PT as (P1 & P2 & D). cbn [exec] in H. rewrite E in H. injection H as <- <-. cbn [w_objs w_heap] in *. eexists. split; [apply replace_same; eapply nth_error_lt; eauto|].
      split; [|intros X; exfalso; apply X; reflexivity]. split; [apply SAME; exact P1|]. split; [apply SAME; exact P2|exact D].
  - destruct (exec_other _ _ _ _ _ _ _ H SB E) as (E1 & _). destruct PT as (P1 & P2 & D). exists oi. split; [exact E1|].
    assert (KEEP : forall p, private w (c :: l) i p -> nth_error (w_heap w1) p = nth_error (w_heap w) p).
    { intros p (x & EP & DP). destruct (CELL _ _ EP) as (x' & EX & KX & X). rewrite EX, EP. f_equal. apply X. destruct DP as [DP|(DP & (NE & _))]; [left; congruence|].
      right. intros j oj SJ EJ. destruct (NE j oj); [congruence|exact EJ|]. auto. }
    split.
    + split; [apply SAME; exact P1|]. split; [apply SAME; exact P2|]. destruct D as [D|(v & D)]; [auto|]. right. exists v. rewrite KEEP by exact P1. exact D.
    + intros _. unfold view. now rewrite (hget_eq _ _ _ (KEEP _ P1)), (hget_eq _ _ _ (KEEP _ P2)).
Qed.
Lemma concerns_heap h h' i c : keeps_taps i c -> concerns h i c = concerns h' i c.
Proof. destruct c; cbn; auto; intros N; destruct (Nat.eqb_spec i0 i); congruence. Qed.
Lemma own_part_heap h h' i l : Forall (keeps_taps i) l -> own_part h i l = own_part h' i l.
Proof. induction 1 as [|c l H _ IH]; [reflexivity|]. unfold own_part in *. cbn [flat_map]. now rewrite IH, (concerns_heap h h' i c H). Qed.
Lemma private_history f : forall script w w' outs i oi, exec_all f w script = Done (Ok (w', outs)) -> sound w script -> Forall (keeps_taps i) script ->
  nth_error (w_objs w) i = Some oi -> private_taps w script i oi ->
  exists oi', nth_error (w_objs w') i = Some oi' /\ alone f (view (w_heap w) oi) (own_part (w_heap w) i script) = Done (Ok (view (w_heap w') oi', bits_of i outs)).
Proof.
  induction script as [|c l IH]; intros w w' outs i oi H SD KT E PT; cbn [exec_all] in H.
  - injection H as <- <-. exists oi. auto.
  - apply obind_ok in H. destruct H as ((w1 & o) & H1 & H). apply obind_ok in H. destruct H as ((w2 & os) & H2 & H). injection H as <- <-.
    inversion KT as [|? ? KT1 KT2]; subst. destruct (exec_store _ _ _ _ _ _ H1 SD) as (_ & _ & _ & SD').
    destruct (private_step _ _ _ _ _ _ _ _ H1 SD KT1 E PT) as (oi1 & E1 & PT1 & V1).
    destruct (IH _ _ _ _ _ H2 SD' KT2 E1 PT1) as (oi' & E2 & K). exists oi'. split; [exact E2|].
    destruct (subject_dec c i) as [SB|SB].
    + destruct SD as (_ & SC). inversion SC as [|? ? SC1 _]; subst.
      destruct (exec_own f w c i oi SB E SC1 (or_introl (private_updatable _ _ _ _ PT)) (own_part (w_heap w) i l)) as (X & _). destruct (X _ _ H1) as (oi1' & E1' & X1).
      assert (oi1' = oi1) by congruence. subst oi1'. unfold own_part in *. cbn [flat_map]. rewrite X1. fold (own_part (w_heap w) i l). rewrite (own_part_heap _ (w_heap w1)) by exact KT2. unfold own_part. rewrite K.
      cbn [obind fst snd]. rewrite bits_app. reflexivity.
    + destruct (exec_other _ _ _ _ _ _ _ H1 SB E) as (_ & BO). unfold own_part. cbn [flat_map]. rewrite concerns_other by exact SB. cbn [app]. rewrite <- (V1 SB). fold (own_part (w_heap w) i l).
      rewrite (own_part_heap _ (w_heap w1)) by exact KT2. rewrite K, bits_app, BO. reflexivity.
Qed.

(** *** A script goes through when every receiver would by itself *)
Definition named (n : nat) (c : cmd) : Prop := match subject c with Some i => (i < n)%nat | None => False end.
Lemma exec_length f w c w1 o : exec f w c = Done (Ok (w1, o)) -> subject c <> None -> length (w_objs w1) = length (w_objs w).
Proof.
  intros H N. destruct c as [s|j x|j|j p|j p]; cbn [exec subject] in *; [congruence| | | |].
  - destruct (nth_error (w_objs w) j); [|discriminate H]. apply obind_ok in H. destruct H as (((h & o') & d) & _ & H). injection H as <- <-. apply replace_length.
  - destruct (nth_error (w_objs w) j); [|discriminate H]. injection H as <- <-. apply replace_length.
  - destruct (nth_error (w_objs w) j); [|discriminate H]. destruct (nth_error (w_heap w) p); [|discriminate H]. destruct (set_ffe _ _); cbn [bind] in H; [|discriminate H]. injection H as <- <-. apply replace_length.
  - destruct (nth_error (w_objs w) j); [|discriminate H]. destruct (nth_error (w_heap w) p); [|discriminate H]. destruct (set_dfe _ _); cbn [bind] in H; [|discriminate H]. injection H as <- <-. apply replace_length.
Qed.
Lemma quiet_completes f : forall script w, never_adapts f w script -> sound w script -> Forall (named (length (w_objs w))) script ->
  (forall i oi, nth_error (w_objs w) i = Some oi -> exists z, alone f (view (w_heap w) oi) (own_part (w_heap w) i script) = Done (Ok z)) ->
  exists w' outs, exec_all f w script = Done (Ok (w', outs)).
Proof.
  induction script as [|c l IH]; intros w N SD NM A; cbn [exec_all]; [eauto|].
  inversion NM as [|? ? NM1 NM2]; subst. unfold named in NM1. destruct (subject c) as [i|] eqn:SB; [|contradiction].
  destruct (nth_error (w_objs w) i) as [oi|] eqn:E; [|apply nth_error_None in E; lia].
  pose proof SD as (_ & SC). inversion SC as [|? ? SC1 _]; subst.
  pose proof (exec_own f w c i oi SB E SC1 (or_intror (quiet_object _ _ _ _ _ _ N E)) (own_part (w_heap w) i l)) as (X & Y).
  destruct (A _ _ E) as (z & Z). unfold own_part in Z. cbn [flat_map] in Z. destruct (Y _ Z) as (w1 & o & H1). rewrite H1. cbn [obind].
  destruct (quiet_step _ _ _ _ _ _ H1 N) as (HE & N1). destruct (exec_store _ _ _ _ _ _ H1 SD) as (_ & _ & _ & SD').
  pose proof (exec_length _ _ _ _ _ H1 ltac:(congruence)) as LE.
  destruct (IH w1 N1 SD') as (w' & outs & H2); [rewrite LE; exact NM2| |rewrite H2; cbn [obind]; eauto].
  intros j oj EJ. rewrite HE. destruct (Nat.eq_dec j i) as [->|NJ].
  - destruct (X _ _ H1) as (oi' & E' & X'). rewrite EJ in E'. injection E' as <-. unfold own_part in X'. rewrite Z in X'. symmetry in X'. apply obind_ok in X'. destruct X' as (z' & X' & _). rewrite HE in X'. eauto.
  - assert (SJ : subject c <> Some j) by congruence. destruct (nth_error (w_objs w) j) as [oj0|] eqn:EJ0.
    2:{ exfalso. apply nth_error_None in EJ0. apply nth_error_lt in EJ. lia. }
    destruct (exec_other _ _ _ _ _ _ _ H1 SJ EJ0) as (EJ1 & _). rewrite EJ1 in EJ. injection EJ as <-. destruct (A _ _ EJ0) as (zj & ZJ). unfold own_part in ZJ. cbn [flat_map] in ZJ. rewrite concerns_other in ZJ by exact SJ. eauto.
Qed.
Lemma private_completes f : forall script w, sound w script -> Forall (named (length (w_objs w))) script ->
  (forall i oi, nth_error (w_objs w) i = Some oi -> Forall (keeps_taps i) script /\ private_taps w script i oi) ->
  (forall i oi, nth_error (w_objs w) i = Some oi -> exists z, alone f (view (w_heap w) oi) (own_part (w_heap w) i script) = Done (Ok z)) ->
  exists w' outs, exec_all f w script = Done (Ok (w', outs)).
Proof.
  induction script as [|c l IH]; intros w SD NM P A; cbn [exec_all]; [eauto|].
  inversion NM as [|? ? NM1 NM2]; subst. unfold named in NM1. destruct (subject c) as [i|] eqn:SB; [|contradiction].
  destruct (nth_error (w_objs w) i) as [oi|] eqn:E; [|apply nth_error_None in E; lia].
  pose proof SD as (_ & SC). inversion SC as [|? ? SC1 _]; subst. destruct (P _ _ E) as (_ & PT).
  pose proof (exec_own f w c i oi SB E SC1 (or_introl (private_updatable _ _ _ _ PT)) (own_part (w_heap w) i l)) as (X & Y).
  destruct (A _ _ E) as (z & Z). unfold own_part in Z. cbn [flat_map] in Z. destruct (Y _ Z) as (w1 & o & H1). rewrite H1. cbn [obind].
  destruct (exec_store _ _ _ _ _ _ H1 SD) as (_ & _ & _ & SD').
  pose proof (exec_length _ _ _ _ _ H1 ltac:(congruence)) as LE.
  assert (OLD : forall j oj, nth_error (w_objs w1) j = Some oj -> exists oj0, nth_error (w_objs w) j = Some oj0).
  { intros j oj EJ. destruct (nth_error (w_objs w) j) as [oj0|] eqn:EJ0; [eauto|]. exfalso. apply nth_error_None in EJ0. apply nth_error_lt in EJ. lia. }
  destruct (IH w1 SD') as (w' & outs & H2); [rewrite LE; exact NM2| | |rewrite H2; cbn [obind]; eauto].
  - intros j oj EJ. destruct (OLD _ _ EJ) as (oj0 & EJ0). destruct (P _ _ EJ0) as (KT & PJ). inversion KT as [|? ? KT1 KT2]; subst. split; [exact KT2|].
    destruct (private_step _ _ _ _ _ _ _ _ H1 SD KT1 EJ0 PJ) as (oj1 & EJ1 & PJ1 & _). congruence.
  - intros j oj EJ. destruct (OLD _ _ EJ) as (oj0 & EJ0). destruct (P _ _ EJ0) as (KT & PJ). inversion KT as [|? ? KT1 KT2]; subst.
    rewrite (own_part_heap _ (w_heap w)) by exact KT2. destruct (Nat.eq_dec j i) as [->|NJ].
    + destruct (X _ _ H1) as (oi' & E' & X'). rewrite EJ in E'. injection E' as <-. unfold own_part in X'. rewrite Z in X'. symmetry in X'. apply obind_ok in X'. destruct X' as (z' & X' & _). eauto.
    + assert (SJ : subject c <> Some j) by congruence. destruct (private_step _ _ _ _ _ _ _ _ H1 SD KT1 EJ0 PJ) as (oj1 & EJ1 & _ & V). rewrite EJ in EJ1. injection EJ1 as <-. rewrite (V SJ).
      destruct (A _ _ EJ0) as (zj & ZJ). unfold own_part in ZJ. cbn [flat_map] in ZJ. rewrite concerns_other in ZJ by exact SJ. eauto.
Qed.

(** *** Receivers made by the script *)
Lemma exec_all_app f : forall a w b w' outs, exec_all f w (a ++ b) = Done (Ok (w', outs)) ->
  exists w1 o1 o2, exec_all f w a = Done (Ok (w1, o1)) /\ exec_all f w1 b = Done (Ok (w', o2)) /\ outs = o1 ++ o2.
Proof.
  induction a as [|c a IH]; intros w b w' outs H; cbn [app exec_all] in *; [exists w, [], outs; auto|].
  apply obind_ok in H. destruct H as ((w1 & o) & H1 & H). apply obind_ok in H. destruct H as ((w2 & os) & H2 & H). injection H as <- <-.
  destruct (IH _ _ _ _ H2) as (w3 & o1 & o2 & A & B & ->). exists w3, (opt_list o ++ o1), o2. rewrite H1. cbn [obind]. rewrite A. cbn [obind]. rewrite app_assoc. auto.
Qed.
Lemma exec_all_objs f : forall script w w' outs, exec_all f w script = Done (Ok (w', outs)) -> w_settings w' = w_settings w /\ length (w_objs w') = (length (w_objs w) + news script)%nat.
Proof.
  induction script as [|c l IH]; intros w w' outs H; cbn [exec_all] in H; [injection H as <- <-; cbn; split; [reflexivity|lia]|].
  apply obind_ok in H. destruct H as ((w1 & o) & H1 & H). apply obind_ok in H. destruct H as ((w2 & os) & H2 & H). injection H as <- <-.
  destruct (IH _ _ _ H2) as (A & B). rewrite A, (exec_settings _ _ _ _ _ H1). split; [reflexivity|]. rewrite B.
  destruct c as [s|j x|j|j p|j p]; [|rewrite (exec_length _ _ _ _ _ H1 ltac:(discriminate)); reflexivity ..].
  cbn [exec] in H1. destruct (nth_error (w_settings w) s); [|discriminate H1]. injection H1 as <- <-. cbn [w_objs news filter length]. rewrite app_length. cbn [length]. unfold news. cbn [filter length]. lia.
Qed.
Lemma exec_all_bits f : forall script w w' outs i, exec_all f w script = Done (Ok (w', outs)) -> (length (w_objs w) + news script <= i)%nat -> bits_of i outs = [].
Proof.
  induction script as [|c l IH]; intros w w' outs i H L; cbn [exec_all] in H; [injection H as <- <-; reflexivity|].
  apply obind_ok in H. destruct H as ((w1 & o) & H1 & H). apply obind_ok in H. destruct H as ((w2 & os) & H2 & H). injection H as <- <-. rewrite bits_app.
  assert (L1 : length (w_objs w1) = (length (w_objs w) + news [c])%nat) by (apply (exec_all_objs f [c] w w1 (opt_list o)); cbn [exec_all]; rewrite H1; cbn [obind]; rewrite app_nil_r; reflexivity).
  assert (NE : news (c :: l) = (news [c] + news l)%nat) by (unfold news; cbn [filter]; destruct c; cbn [length]; lia).
  rewrite (IH _ _ _ i H2) by lia. rewrite app_nil_r. destruct c as [s|j x|j|j p|j p]; cbn [exec] in H1.
  - destruct (nth_error (w_settings w) s); [|discriminate H1]. injection H1 as _ <-. reflexivity.
  - destruct (nth_error (w_objs w) j) eqn:EJ; [|discriminate H1]. apply nth_error_lt in EJ. apply obind_ok in H1. destruct H1 as (((h & o') & d) & _ & H1). injection H1 as _ <-. cbn [opt_list bits_of flat_map fst].
    destruct (Nat.eqb_spec j i); [lia|reflexivity].
  - destruct (nth_error (w_objs w) j); [|discriminate H1]. injection H1 as _ <-. reflexivity.
  - destruct (nth_error (w_objs w) j); [|discriminate H1]. destruct (nth_error (w_heap w) p); [|discriminate H1]. destruct (set_ffe _ _); cbn [bind] in H1; [|discriminate H1]. injection H1 as _ <-. reflexivity.
  - destruct (nth_error (w_objs w) j); [|discriminate H1]. destruct (nth_error (w_heap w) p); [|discriminate H1]. destruct (set_dfe _ _); cbn [bind] in H1; [|discriminate H1]. injection H1 as _ <-. reflexivity.
Qed.
Lemma quiet_after f : forall a w b w' outs, never_adapts f w (a ++ b) -> sound w (a ++ b) -> exec_all f w a = Done (Ok (w', outs)) -> never_adapts f w' b /\ sound w' b /\ w_heap w' = w_heap w.
Proof.
  induction a as [|c l IH]; intros w b w' outs N SD H; cbn [app exec_all] in *; [injection H as <- <-; auto|].
  apply obind_ok in H. destruct H as ((w1 & o) & H1 & H). apply obind_ok in H. destruct H as ((w2 & os) & H2 & H). injection H as <- <-.
  destruct (quiet_step _ _ _ _ _ _ H1 N) as (HE & N1). destruct (exec_store _ _ _ _ _ _ H1 SD) as (_ & _ & _ & SD').
  destruct (IH _ _ _ _ N1 SD' H2) as (A & B & C). split; [exact A|]. split; [exact B|congruence].
Qed.
(** A receiver built by the script starts from its settings. *)
Lemma quiet_created f a s st b w w' outs : never_adapts f w (a ++ New s :: b) -> sound w (a ++ New s :: b) -> exec_all f w (a ++ New s :: b) = Done (Ok (w', outs)) ->
  nth_error (w_settings w) s = Some st -> let i := (length (w_objs w) + news a)%nat in
  exists oi', nth_error (w_objs w') i = Some oi' /\
    alone f (view (w_heap w) (new_receiver st)) (own_part (w_heap w) i b) = Done (Ok (view (w_heap w) oi', bits_of i outs)).
Proof.
  intros N SD H ES i. destruct (exec_all_app _ _ _ _ _ _ H) as (w1 & o1 & o2 & H1 & H2 & ->).
  destruct (quiet_after _ _ _ _ _ _ N SD H1) as (N1 & S1 & HE). destruct (exec_all_objs _ _ _ _ _ H1) as (SE & LE).
  pose proof (exec_all_bits _ _ _ _ _ i H1 (le_n _)) as BO. cbn [exec_all] in H2. apply obind_ok in H2. destruct H2 as ((w2 & o) & H3 & H2). apply obind_ok in H2. destruct H2 as ((w3 & os) & H4 & H2). injection H2 as <- <-.
  destruct (quiet_step _ _ _ _ _ _ H3 N1) as (HE2 & N2). destruct (exec_store _ _ _ _ _ _ H3 S1) as (_ & _ & _ & S2).
  cbn [exec] in H3. rewrite SE, ES in H3. injection H3 as <- <-. cbn [opt_list app].
  destruct (quiet_history _ _ _ _ _ N2 S2 H4) as (_ & K). cbn [w_heap w_objs] in K. rewrite HE in K. destruct (K i (new_receiver st)) as (oi' & E & K').
  { rewrite nth_error_app2 by (unfold i; lia). replace (i - length (w_objs w1))%nat with 0%nat by (unfold i; lia). reflexivity. }
  exists oi'. split; [exact E|]. rewrite bits_app, BO. exact K'.
Qed.

(** *** Common taps *)
Definition float_at (h : heap) (p : nat) : Prop := exists v, nth_error h p = Some (mk_cell KFloat v).
Lemma common_history f : forall script w w' outs i oi, exec_all f w script = Done (Ok (w', outs)) -> sound w script -> Forall (keeps_taps i) script ->
  nth_error (w_objs w) i = Some oi -> float_at (w_heap w) (ro_ffe oi) -> float_at (w_heap w) (ro_dfe oi) ->
  exists oi', nth_error (w_objs w') i = Some oi' /\ ro_ffe oi' = ro_ffe oi /\ ro_dfe oi' = ro_dfe oi /\ float_at (w_heap w') (ro_ffe oi) /\ float_at (w_heap w') (ro_dfe oi).
Proof.
  induction script as [|c l IH]; intros w w' outs i oi H SD KT E F1 F2; cbn [exec_all] in H; [injection H as <- <-; exists oi; auto|].
  apply obind_ok in H. destruct H as ((w1 & o) & H1 & H). apply obind_ok in H. destruct H as ((w2 & os) & H2 & H). injection H as <- <-. inversion KT as [|? ? KT1 KT2]; subst.
  destruct (exec_store _ _ _ _ _ _ H1 SD) as (_ & CELL & OBJ & SD').
  assert (FL : forall p, float_at (w_heap w) p -> float_at (w_heap w1) p).
  { intros p (v & EP). destruct (CELL _ _ EP) as ([k v'] & EX & KX & _). cbn in KX. subst k. exists v'. exact EX. }
  assert (STEP : exists oi1, nth_error (w_objs w1) i = Some oi1 /\ ro_ffe oi1 = ro_ffe oi /\ ro_dfe oi1 = ro_dfe oi).
  { destruct (subject_dec c i) as [SB|SB]; [|destruct (exec_other _ _ _ _ _ _ _ H1 SB E) as (E1 & _); eauto].
    assert (L1 : (i < length (w_objs w1))%nat) by (rewrite (exec_length _ _ _ _ _ H1) by congruence; eapply nth_error_lt; eauto).
    destruct (nth_error (w_objs w1) i) as [oi1|] eqn:E1; [|apply nth_error_None in E1; lia]. exists oi1. split; [reflexivity|].
    destruct (OBJ _ _ E1) as (_ & _ & [K|[(oj & K1 & _ & K2 & K3)|(_ & K0 & _)]]); [rewrite E in K; injection K as <-; auto| |congruence].
    rewrite E in K1. injection K1 as <-. destruct F1 as (v1 & F1), F2 as (v2 & F2).
    assert (B : binds (w_settings w) c = []) by (destruct c as [s|j x|j|j p|j p]; cbn [keeps_taps subject binds] in *; congruence). rewrite B in K2, K3. split.
    - destruct K2 as [[K2|(_ & v & K2)]|[]]; [exact K2|]. rewrite F1 in K2. discriminate K2.
    - destruct K3 as [[K3|(_ & v & K3)]|[]]; [exact K3|]. rewrite F2 in K3. discriminate K3. }
  destruct STEP as (oi1 & E1 & R1 & R2). destruct (IH _ _ _ _ _ H2 SD' KT2 E1) as (oi' & E2 & Q1 & Q2 & Q3 & Q4); [rewrite R1; auto|rewrite R2; auto|].
  exists oi'. rewrite R1 in *. rewrite R2 in *. auto 10.
Qed.

(** *** Integer taps *)
Lemma integer_raises g h o x r d c : rx_converge (ro_rx o) = true -> rx_conv_lms (ro_rx o) = true -> nth_error h (ro_ffe o) = Some c -> c_kind c = KInt ->
  receive (Some g) (view h o) x = Done (Ok (r, d)) -> share_receive (Some g) h o x = Done (Raise TypeError).
Proof.
  intros CV CL E K H. unfold receive in H. unfold share_receive. apply obind_ok in H. destruct H as (r1 & H1 & H). rewrite H1. cbn [obind]. apply done_inj in H1. apply input_keeps in H1.
  destruct H1 as (I1 & I2 & _). cbn [view with_taps rx_converge rx_conv_lms] in I1, I2. apply obind_ok in H. destruct H as (r2 & H2 & _).
  unfold digital_stage in H2. unfold share_digital. apply obind_ok in H2. destruct H2 as (r3 & H3 & H2). rewrite H3. cbn [obind]. apply done_inj in H3. apply slice_keeps in H3. destruct H3 as (S1 & S2 & _).
  rewrite S1, I1, CV in *. apply obind_ok in H2. destruct H2 as (r4 & H4 & H2). rewrite H4. cbn [obind]. apply gain_keeps in H4. destruct H4 as (_ & G2 & _).
  apply obind_ok in H2. destruct H2 as (r5 & H5 & H2). rewrite H5. cbn [obind]. apply cdr_step in H5. destruct H5 as (_ & C2 & _).
  apply obind_ok in H2. destruct H2 as (r6 & H6 & _). apply done_inj in H6. unfold lms_stage in H6. unfold share_lms. assert (LM : rx_conv_lms r5 = true) by congruence. rewrite LM in *. cbv zeta in *.
  apply bind_ok in H6. destruct H6 as (fi & E1 & H6). rewrite E1. cbn [bind]. apply bind_ok in H6. destruct H6 as (di & E2 & H6). rewrite E2. cbn [bind].
  apply bind_ok in H6. destruct H6 as (((m & gf) & gd) & E3 & H6). rewrite E3. cbn [bind]. unfold iadd at 1. rewrite E, K. reflexivity.
Qed.
