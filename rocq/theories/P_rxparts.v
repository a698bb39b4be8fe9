(** Proofs about the stages of the receiver of the example link: equaliser, ADC, levels and demapping. *)
From Coq Require Import String.
From Verif Require Import Py PyQ B_list B_qc M_aux M_symbol M_slicer S_rx P_slicer M_filter S_filter P_filter Prop_filter P_map M_sim M_rxloop S_rxloop P_rxloop S_rxparts.
From Coq Require Import QArith Qcanon Qabs Qround Lqa.
Import List.
Open Scope Z_scope.

(** *** Equaliser *)
Lemma unit_tap_length p q : length (unit_tap p q) = (p + q + 1)%nat.
Proof. unfold unit_tap. rewrite app_length. cbn [length]. rewrite !repeat_length. lia. Qed.
Lemma checked_ok g n d v : length d = n -> checked g n d = Ok v -> length v = n /\ (g = None -> v = d) /\ (forall w, g = Some w -> v = w).
Proof.
  unfold checked. intros L. destruct g as [w|]; [destruct (Nat.eqb_spec (length w) n)|]; intros H; try discriminate H; injection H as <-; repeat split; auto; try congruence; intros ? [= <-]; auto.
Qed.
Lemma checked_fails g n d : (exists w, g = Some w /\ length w <> n) -> checked g n d = Raise ValueError.
Proof. intros (w & -> & N). unfold checked. now rewrite (proj2 (Nat.eqb_neq _ _) N). Qed.
Definition fits (g : option (list Qc)) (n : nat) : Prop := match g with None => True | Some w => length w = n end.
Lemma checked_fits g n d : fits g n -> checked g n d = Ok (match g with None => d | Some w => w end).
Proof. unfold checked, fits. destruct g as [w|]; auto. intros ->. now rewrite Nat.eqb_refl. Qed.
Lemma checked_not g n d : ~ fits g n -> checked g n d = Raise ValueError.
Proof. unfold checked, fits. destruct g as [w|]; [|tauto]. intros N. now rewrite (proj2 (Nat.eqb_neq _ _) N). Qed.
Lemma fits_dec g n : {fits g n} + {~ fits g n}.
Proof. unfold fits. destruct g; auto. apply Nat.eq_dec. Qed.
Lemma eq_init_spec pre post dfe fv dv lv zf zd :
  (fits fv (pre + post + 1) /\ fits dv dfe /\ fits zf (pre + post + 1) /\ fits zd dfe /\ ((0 < dfe)%nat -> lv <> None) ->
     eq_init pre post dfe fv dv lv zf zd = Ok (mk_eq pre post dfe lv
       (match fv with None => unit_tap pre post | Some v => v end) (match dv with None => repeat (ofZ 0) dfe | Some v => v end)
       (match zf with None => repeat (ofZ 0) (pre + post + 1) | Some v => v end) (match zd with None => repeat (ofZ 0) dfe | Some v => v end))) /\
  (~ (fits fv (pre + post + 1) /\ fits dv dfe /\ fits zf (pre + post + 1) /\ fits zd dfe /\ ((0 < dfe)%nat -> lv <> None)) ->
     eq_init pre post dfe fv dv lv zf zd = Raise ValueError).
Proof.
  assert (G : fits dv dfe -> length (match dv with None => repeat (ofZ 0) dfe | Some v => v end) = dfe) by (destruct dv; cbn [fits]; auto; intros _; apply repeat_length).
  unfold eq_init. split.
  - intros (H1 & H2 & H3 & H4 & H5). rewrite !checked_fits by auto. cbn [bind]. rewrite G by auto. destruct (Nat.ltb_spec 0 dfe) as [L|L]; cbn [andb].
    + destruct lv; [reflexivity|]. destruct (H5 L); reflexivity.
    + reflexivity.
  - intros N. destruct (fits_dec fv (pre + post + 1)) as [H1|H1]; [|now rewrite checked_not]. rewrite checked_fits by auto. cbn [bind].
    destruct (fits_dec dv dfe) as [H2|H2]; [|now rewrite checked_not]. rewrite (checked_fits dv) by auto. cbn [bind]. rewrite G by auto.
    destruct (_ && _) eqn:E; [reflexivity|].
    destruct (fits_dec zf (pre + post + 1)) as [H3|H3]; [|now rewrite checked_not]. rewrite (checked_fits zf) by auto. cbn [bind].
    destruct (fits_dec zd dfe) as [H4|H4]; [|now rewrite checked_not]. exfalso. apply N. repeat (split; auto). intros L ->. destruct (Nat.ltb_spec 0 dfe); [discriminate E|lia].
Qed.
Lemma eq_init_sized pre post dfe fv dv lv zf zd e : eq_init pre post dfe fv dv lv zf zd = Ok e -> lv <> Some [] -> sized e.
Proof.
  intros H N. destruct (eq_init_spec pre post dfe fv dv lv zf zd) as [A B].
  assert (D : {fits fv (pre + post + 1) /\ fits dv dfe /\ fits zf (pre + post + 1) /\ fits zd dfe /\ ((0 < dfe)%nat -> lv <> None)} +
              {~ (fits fv (pre + post + 1) /\ fits dv dfe /\ fits zf (pre + post + 1) /\ fits zd dfe /\ ((0 < dfe)%nat -> lv <> None))}).
  { destruct (fits_dec fv (pre + post + 1)), (fits_dec dv dfe), (fits_dec zf (pre + post + 1)), (fits_dec zd dfe); try (right; tauto).
    destruct lv as [l|]; [left; repeat (split; auto); discriminate|]. destruct (Nat.eq_dec dfe 0) as [->|Z]; [left; repeat (split; auto); lia|right; intros (_ & _ & _ & _ & X); apply X; [lia|reflexivity]]. }
  destruct D as [D|D]; [|rewrite (B D) in H; discriminate H]. rewrite (A D) in H. injection H as <-. destruct D as (H1 & H2 & H3 & H4 & H5).
  unfold sized, fits in *. cbn [e_ffe_vec e_zi_ffe e_dfe_vec e_zi_dfe e_dfe e_pre e_post e_levels].
  repeat split; [destruct fv; auto; apply unit_tap_length|destruct zf; auto; apply repeat_length|destruct dv; auto; apply repeat_length|destruct zd; auto; apply repeat_length|].
  intros L. destruct lv as [l|]; [exists l; split; congruence|destruct (H5 L); reflexivity].
Qed.
Lemma some_len (z : list Qc) n : length z = n -> forall w, Some z = Some w -> length w = n.
Proof. intros H w [= <-]. exact H. Qed.
Lemma eq_call_streams e x1 x2 : sized e -> long_enough e x1 -> long_enough e x2 ->
  exists s1 e1 s2 e2, eq_call e x1 = Ok (s1, e1) /\ eq_call e1 x2 = Ok (s2, e2) /\ eq_call e (x1 ++ x2) = Ok (s1 ++ s2, e2) /\ sized e1.
Proof.
  intros (L1 & L2 & L3 & L4 & L5) [N1 M1] [N2 M2]. unfold eq_call. destruct (Nat.eqb_spec (e_dfe e) 0) as [D|D]; destruct (Nat.eqb_spec (length (e_ffe_vec e)) 1) as [F|F]; cbn [andb].
  - destruct (e_ffe_vec e) as [|c [|? ?]] eqn:EV; try discriminate F. cbn [ffe_dfe length Nat.eqb bind nth]. exists (map (fun v => v * c)%Qc x1), e, (map (fun v => v * c)%Qc x2), e.
    rewrite EV, D. cbn [length Nat.eqb andb ffe_dfe bind nth]. rewrite map_app. repeat split; auto; rewrite ?EV; auto; lia.
  - assert (F2 : (2 <= length (e_ffe_vec e))%nat) by lia.
    destruct (C42_streaming_ffe x1 x2 (e_ffe_vec e) (e_levels e) 1 0 (Some (e_zi_ffe e)) None N2 F2 (M1 D F2)) as (y1 & f1 & y2 & f2 & f & A & B & C & E).
    { apply some_len. congruence. }
    rewrite A. cbn [bind]. exists y1, (with_memory e f1 (e_zi_dfe e)), y2, (with_memory e f2 (e_zi_dfe e)). split; [reflexivity|]. cbn [with_memory e_dfe e_ffe_vec e_levels e_zi_ffe e_zi_dfe].
    rewrite D, (proj2 (Nat.eqb_neq _ _) F). cbn [Nat.eqb andb]. rewrite B, C. cbn [bind]. split; [reflexivity|]. split; [rewrite E by auto; reflexivity|].
    destruct (C41_ffe_only x1 (e_ffe_vec e) (e_levels e) 1 0 (Some (e_zi_ffe e)) None N1 F2) as (y & A' & _); [apply some_len; congruence|]. rewrite A in A'. injection A' as _ ->.
    unfold sized. cbn [with_memory e_dfe e_ffe_vec e_levels e_zi_ffe e_zi_dfe e_dfe_vec e_pre e_post]. repeat split; auto; try lia.
    unfold lastn. rewrite skipn_length. specialize (M1 D F2). lia.
  - destruct (L5 ltac:(lia)) as (l & EL & NL). destruct (e_ffe_vec e) as [|c [|? ?]] eqn:EV; try discriminate F.
    destruct (C42_streaming_one_tap x1 x2 (e_dfe_vec e) c (e_levels e) 1 0 (Some (e_zi_dfe e))) as (s1 & d1 & s2 & d2 & A & B & C); auto; try lia; try (rewrite ?Z.mod_1_r; reflexivity).
    { intros E. rewrite E in L3. cbn in L3. lia. } { rewrite EL. exact NL. } { apply some_len. congruence. }
    rewrite A. cbn [bind]. exists s1, (with_memory e (e_zi_ffe e) d1), s2, (with_memory e (e_zi_ffe e) d2). split; [reflexivity|]. cbn [with_memory e_dfe e_ffe_vec e_levels e_zi_ffe e_zi_dfe e_dfe_vec].
    rewrite EV, (proj2 (Nat.eqb_neq _ _) D). cbn [length Nat.eqb andb]. rewrite B, C. cbn [bind]. split; [reflexivity|]. split; [reflexivity|].
    destruct (C41_ffe_dfe_equation x1 [c] (e_dfe_vec e) (e_levels e) 1 0 None (Some (e_zi_dfe e))) as (si & so & zo & Q1 & Q2 & _); auto; try lia; try discriminate.
    { intros E. rewrite E in L3. cbn in L3. lia. } { rewrite EL. exact NL. } { apply some_len. congruence. }
    rewrite A in Q2. cbn [length Nat.eqb] in Q2. injection Q2 as _ ->. unfold sized. cbn [with_memory e_dfe e_ffe_vec e_levels e_zi_ffe e_zi_dfe e_dfe_vec e_pre e_post]. rewrite EV. repeat split; auto.
    rewrite firstn_length. unfold dfe_contents. rewrite app_length. lia.
  - destruct (L5 ltac:(lia)) as (l & EL & NL). assert (F2 : (2 <= length (e_ffe_vec e))%nat) by lia. assert (ND : e_dfe_vec e <> []) by (intros E; rewrite E in L3; cbn in L3; lia).
    destruct (C42_streaming_osr1 x1 x2 (e_ffe_vec e) (e_dfe_vec e) (e_levels e) 0 (Some (e_zi_ffe e)) (Some (e_zi_dfe e))) as (s1 & f1 & d1 & s2 & f2 & d2 & A & B & C); auto.
    { rewrite EL. exact NL. } { apply some_len. congruence. } { apply some_len. congruence. }
    rewrite A. cbn [bind]. exists s1, (with_memory e f1 d1), s2, (with_memory e f2 d2). split; [reflexivity|]. cbn [with_memory e_dfe e_ffe_vec e_levels e_zi_ffe e_zi_dfe e_dfe_vec].
    rewrite (proj2 (Nat.eqb_neq _ _) F), (proj2 (Nat.eqb_neq _ _) D). cbn [andb]. rewrite B, C. cbn [bind]. split; [reflexivity|]. split; [reflexivity|].
    destruct (C41_ffe_dfe_equation x1 (e_ffe_vec e) (e_dfe_vec e) (e_levels e) 1 0 (Some (e_zi_ffe e)) (Some (e_zi_dfe e))) as (si & so & zo & Q1 & Q2 & Q3 & _); auto; try lia.
    { intros E. rewrite E in F2. cbn in F2. lia. } { rewrite EL. exact NL. } { apply some_len. congruence. } { apply some_len. congruence. }
    rewrite A in Q2. rewrite (proj2 (Nat.eqb_neq _ _) F) in Q2. injection Q2 as _ -> ->. unfold sized. cbn [with_memory e_dfe e_ffe_vec e_levels e_zi_ffe e_zi_dfe e_dfe_vec e_pre e_post].
    repeat split; auto; [congruence|]. rewrite firstn_length. unfold dfe_contents. rewrite app_length. lia.
Qed.
Lemma long_enough_keeps e x s e' y : eq_call e x = Ok (s, e') -> long_enough e y -> long_enough e' y.
Proof. intros H. destruct (eq_call_pre _ _ _ _ H) as (A & B & C & D & E & F). unfold long_enough. rewrite C, D. auto. Qed.
Lemma long_enough_app e x y : long_enough e x -> long_enough e (x ++ y).
Proof. intros [A B]. split; [destruct x; [congruence|discriminate]|]. intros H1 H2. rewrite app_length. specialize (B H1 H2). lia. Qed.
Lemma eq_calls_concat cs : forall e c, sized e -> long_enough e c -> Forall (long_enough e) cs -> exists r, eq_calls e (c :: cs) = Ok r /\ eq_call e (concat (c :: cs)) = Ok r.
Proof.
  induction cs as [|c2 cs IH]; intros e c S L F.
  - destruct (eq_call_streams e c c S L L) as (s1 & e1 & s2 & e2 & A & _). exists (s1, e1). cbn [eq_calls concat]. rewrite app_nil_r, A. cbn [bind fst snd eq_calls]. rewrite app_nil_r. auto.
  - inversion F as [|? ? F1 F2]; subst. change (concat (c :: c2 :: cs)) with (c ++ concat (c2 :: cs)).
    destruct (eq_call_streams e c (concat (c2 :: cs)) S L) as (s1 & e1 & s2 & e2 & A & B & C & S1); [cbn [concat]; now apply long_enough_app|].
    destruct (IH e1 c2 S1) as (r & R1 & R2); [eapply long_enough_keeps; eauto|eapply Forall_impl; [|exact F2]; intros; eapply long_enough_keeps; eauto|].
    cbn [eq_calls] in R1 |- *. rewrite A. cbn [bind fst snd]. rewrite R2 in B. injection B as ->. cbn [eq_calls] in R1. rewrite R1. cbn [bind fst snd]. eauto.
Qed.
Lemma sumQ_zeros {A} (f : A -> Qc) l : (forall x, In x l -> f x = 0%Qc) -> sumQ (map f l) = 0%Qc.
Proof. intros H. rewrite (sumQ_map_ext f (fun _ => 0%Qc)) by auto. induction l as [|a l IH]; [reflexivity|]. cbn [map]. rewrite sumQ_cons, IH by (intros; apply H; now right). ring. Qed.
Lemma sumQ_one (f : nat -> Qc) n p : (p < n)%nat -> (forall i, i <> p -> f i = 0%Qc) -> sumQ (map f (seq 0 n)) = f p.
Proof.
  intros Hp H. replace n with (p + S (n - p - 1))%nat by lia. rewrite seq_app, map_app, sumQ_app. cbn [seq map Nat.add]. rewrite sumQ_cons.
  rewrite sumQ_zeros by (intros i Hi; apply in_seq in Hi; apply H; lia). rewrite sumQ_zeros by (intros i Hi; apply in_seq in Hi; apply H; lia). ring.
Qed.
Lemma unit_tap_nth p q i : nth i (unit_tap p q) 0%Qc = if (i =? p)%nat then ofZ 1 else 0%Qc.
Proof.
  unfold unit_tap. destruct (Nat.eqb_spec i p) as [->|N].
  - rewrite app_nth2 by (rewrite repeat_length; lia). rewrite repeat_length, Nat.sub_diag. reflexivity.
  - destruct (Nat.lt_ge_cases i p) as [L|L].
    + rewrite app_nth1 by (now rewrite repeat_length). now apply repeat_nth.
    + rewrite app_nth2 by (rewrite repeat_length; lia). rewrite repeat_length. destruct (i - p)%nat as [|k] eqn:E; [lia|]. cbn [nth].
      destruct (Nat.lt_ge_cases k q); [now apply repeat_nth|apply nth_overflow; rewrite repeat_length; lia].
Qed.
Lemma unit_tap_sum p q k x n : tap_sum (unit_tap p q) (repeat 0%Qc k) x 0 n = at_time [] x (Z.of_nat n - Z.of_nat p).
Proof.
  rewrite tap_sum_zero. unfold tap_sum. rewrite Nat.sub_0_r, unit_tap_length. rewrite (sumQ_one _ _ p).
  - rewrite unit_tap_nth, Nat.eqb_refl. change (ofZ 1) with 1%Qc. ring.
  - lia.
  - intros i N. rewrite unit_tap_nth, (proj2 (Nat.eqb_neq _ _) N). ring.
Qed.
Lemma rev_repeat {A} (v : A) n : rev (repeat v n) = repeat v n.
Proof. induction n as [|n IH]; [reflexivity|]. cbn [repeat rev]. rewrite IH. clear. induction n; cbn; congruence. Qed.
Lemma default_delays pre post dfe lv e x : eq_init pre post dfe None None lv None None = Ok e -> lv <> Some [] -> x <> [] ->
  exists y e', eq_call e x = Ok (y, e') /\ length y = length x /\ forall n, (n < length x)%nat -> nth n y 0%Qc = if (n <? pre)%nat then 0%Qc else nth (n - pre) x 0%Qc.
Proof.
  intros H NL N. assert (S := eq_init_sized _ _ _ _ _ _ _ _ _ H NL). destruct (eq_init_spec pre post dfe None None lv None None) as [A B].
  assert (D : (0 < dfe)%nat -> lv <> None).
  { intros L ->. rewrite B in H; [discriminate H|]. intros (_ & _ & _ & _ & X). now apply (X L). }
  rewrite A in H by (repeat split; auto). injection H as <-. destruct S as (L1 & L2 & L3 & L4 & L5). unfold eq_call. cbn [e_dfe e_ffe_vec e_levels e_zi_ffe e_zi_dfe e_dfe_vec e_pre e_post] in *.
  assert (AT : forall n, (n < length x)%nat -> at_time [] x (Z.of_nat n - Z.of_nat pre) = if (n <? pre)%nat then 0%Qc else nth (n - pre) x 0%Qc).
  { intros n Hn. unfold at_time. destruct (Z.ltb_spec (Z.of_nat n - Z.of_nat pre) 0), (Nat.ltb_spec n pre); try lia; [now destruct (Z.to_nat _)|]. f_equal. lia. }
  destruct (Nat.eqb_spec dfe 0) as [->|ND]; destruct (Nat.eqb_spec (length (unit_tap pre post)) 1) as [F|F]; cbn [andb].
  - rewrite unit_tap_length in F. assert (pre = 0%nat) by lia. assert (post = 0%nat) by lia. subst. cbn [unit_tap repeat app ffe_dfe length Nat.eqb bind nth].
    do 2 eexists. split; [reflexivity|]. rewrite map_length. split; [reflexivity|]. intros n Hn. cbn [Nat.ltb Nat.leb]. rewrite Nat.sub_0_r, (map_nth_lt _ _ n 0%Qc) by auto. change (ofZ 1) with 1%Qc. ring.
  - assert (F2 : (2 <= length (unit_tap pre post))%nat) by (rewrite unit_tap_length in *; lia).
    destruct (C41_ffe_only x (unit_tap pre post) lv 1 0 (Some (repeat (ofZ 0) (pre + post + 1))) None N F2) as (y & Y1 & Y2 & Y3); [apply some_len; rewrite repeat_length, unit_tap_length; reflexivity|].
    rewrite Y1. cbn [bind]. do 2 eexists. split; [reflexivity|]. split; [exact Y2|]. intros n Hn. rewrite Y3 by auto. rewrite rev_repeat. change (ofZ 0) with 0%Qc. rewrite unit_tap_sum. auto.
  - rewrite unit_tap_length in F. assert (pre = 0%nat) by lia. assert (post = 0%nat) by lia. subst. destruct (L5 ltac:(lia)) as (l & EL & NE).
    destruct (C41_ffe_dfe_equation x (unit_tap 0 0) (repeat (ofZ 0) dfe) lv 1 0 None (Some (repeat (ofZ 0) dfe))) as (si & so & zo & Q1 & Q2 & _); auto; try lia; try discriminate.
    { destruct dfe; [lia|discriminate]. } { rewrite EL. exact NE. } { apply some_len. reflexivity. }
    rewrite Q2. cbn [unit_tap repeat app length Nat.eqb bind]. destruct Q1 as (I1 & _ & I3). do 2 eexists. split; [reflexivity|]. split; [exact I1|]. intros n Hn. rewrite I3 by auto.
    rewrite (sumQ_zeros (fun j => _)).
    2:{ intros j Hj. apply in_seq in Hj. rewrite repeat_length in Hj. rewrite repeat_nth by lia. change (ofZ 0) with 0%Qc. ring. }
    rewrite <- (tap_sum_zero _ 0). rewrite unit_tap_sum. rewrite AT by auto. ring.
  - assert (F2 : (2 <= length (unit_tap pre post))%nat) by (rewrite unit_tap_length in *; lia). destruct (L5 ltac:(lia)) as (l & EL & NE).
    destruct (C41_ffe_dfe_equation x (unit_tap pre post) (repeat (ofZ 0) dfe) lv 1 0 (Some (repeat (ofZ 0) (pre + post + 1))) (Some (repeat (ofZ 0) dfe))) as (si & so & zo & Q1 & Q2 & _); auto; try lia.
    { intros E. rewrite E in F2. cbn in F2. lia. } { destruct dfe; [lia|discriminate]. } { rewrite EL. exact NE. } { apply some_len. rewrite repeat_length, unit_tap_length. reflexivity. } { apply some_len. reflexivity. }
    rewrite Q2, (proj2 (Nat.eqb_neq _ _) F). cbn [bind]. destruct Q1 as (I1 & _ & I3). do 2 eexists. split; [reflexivity|]. split; [exact I1|]. intros n Hn. rewrite I3 by auto.
    rewrite (sumQ_zeros (fun j => _)).
    2:{ intros j Hj. apply in_seq in Hj. rewrite repeat_length in Hj. rewrite repeat_nth by lia. change (ofZ 0) with 0%Qc. ring. }
    rewrite rev_repeat. change (ofZ 0) with 0%Qc. rewrite unit_tap_sum, AT by auto. ring.
Qed.

(** *** ADC *)
Lemma adc_call_eq a x : adc_good a -> (Z.to_nat (a_phase a) <= length x)%nat ->
  adc_call a x = Ok (map (fun i => converted a (nth i x 0%Qc)) (instants (Z.to_nat (a_phase a)) (adc_step a) (length x))).
Proof.
  intros (T & Y & R & St & P) L. unfold adc_call. destruct (Z.eqb_spec (a_rate a) 0); [lia|]. unfold arange. destruct (Z.eqb_spec (a_osr a / a_rate a) 0); [lia|]. cbn [bind].
  set (ph := Z.to_nat (a_phase a)) in *. set (st := adc_step a). assert (ES : a_osr a / a_rate a = Z.of_nat st) by (unfold st, adc_step; lia). assert (EP : a_phase a = Z.of_nat ph) by (unfold ph; lia).
  rewrite ES, EP. assert (ST : (0 < st)%nat) by lia.
  assert (CNT : Z.to_nat (- ((Z.of_nat ph - Z.of_nat (length x)) / Z.of_nat st)) = ((length x - ph + st - 1) / st)%nat).
  { apply Nat2Z.inj. rewrite Nat2Z.inj_div. rewrite Z2Nat.id.
    - replace (Z.of_nat (length x - ph + st - 1)) with (Z.of_nat (length x) - Z.of_nat ph + Z.of_nat st - 1) by lia.
      set (d := Z.of_nat (length x) - Z.of_nat ph). replace (Z.of_nat ph - Z.of_nat (length x)) with (- d) by (unfold d; lia). clearbody d.
      pose proof (Z.div_mod (- d) (Z.of_nat st) ltac:(lia)) as E1. pose proof (Z.mod_pos_bound (- d) (Z.of_nat st) ltac:(lia)) as B1.
      apply (Z.div_unique_pos _ _ _ (Z.of_nat st - 1 - (- d) mod Z.of_nat st)); [lia|]. nia.
    - assert ((Z.of_nat ph - Z.of_nat (length x)) / Z.of_nat st <= 0 / Z.of_nat st) by (apply Z.div_le_mono; lia). rewrite Z.div_0_l in H by lia. lia. }
  rewrite CNT. set (cnt := ((length x - ph + st - 1) / st)%nat).
  assert (LT : forall k, (k < cnt)%nat -> (ph + k * st < length x)%nat).
  { intros k Hk. unfold cnt in Hk. assert (k * st < length x - ph)%nat; [|lia].
    assert (M := Nat.mul_div_le (length x - ph + st - 1) st ltac:(lia)). set (qq := ((length x - ph + st - 1) / st)%nat) in *. clearbody qq. assert (st * (k + 1) <= st * qq)%nat by (apply Nat.mul_le_mono_l; lia). nia. }
  unfold np_take. rewrite (map_res_ok _ (fun z => nth (Z.to_nat z) x 0%Qc)).
  2:{ intros z Hz. apply in_map_iff in Hz. destruct Hz as (k & <- & Hk). apply in_seq in Hk. replace (Z.of_nat ph + Z.of_nat k * Z.of_nat st) with (Z.of_nat (ph + k * st)) by lia. rewrite Nat2Z.id. apply np_get_nth. apply LT. lia. }
  cbn [bind]. rewrite map_map. rewrite quantize_eq; auto.
  2:{ unfold wf_nda. cbn [data shape vec]. unfold size. cbn [fold_right]. lia. }
  2:{ left. eexists. reflexivity. }
  cbn [bind data vec]. unfold instants. fold cnt. rewrite !map_map. f_equal. apply map_ext. intros k.
  replace (Z.to_nat (Z.of_nat ph + Z.of_nat k * Z.of_nat st)) with (ph + k * st)%nat by lia. unfold converted, adc_low, adc_high.
  assert (TS : ty_signed (a_type a) = negb (a_type a =? "u")%string) by (destruct Y as [E|[E|E]]; rewrite E; reflexivity). rewrite TS.
  change (2 ^ Z.max 0 0) with 1. change (ofZ 1) with 1%Qc. rewrite Qcmult_1_r. f_equal. field. discriminate.
Qed.
Lemma instants_app ph st a b : (0 < st)%nat -> (ph < st)%nat -> (a mod st = 0)%nat ->
  instants ph st (a + b) = instants ph st a ++ map (fun i => a + i)%nat (instants ph st b).
Proof.
  intros S P M. apply Nat.mod_divide in M; [|lia]. destruct M as [m ->]. unfold instants.
  assert (C : forall n, ((n * st + b - ph + st - 1) / st = n + (b - ph + st - 1) / st)%nat).
  { intros n. destruct (Nat.le_gt_cases ph b).
    - replace (n * st + b - ph + st - 1)%nat with ((b - ph + st - 1) + n * st)%nat by nia. rewrite Nat.div_add by lia. lia.
    - destruct n as [|n]; [reflexivity|].
      rewrite (Nat.div_small (b - ph + st - 1) st) by lia. rewrite Nat.add_0_r.
      symmetry. apply (Nat.div_unique _ _ _ (b + st - 1 - ph)%nat); [lia|]. nia. }
  rewrite C. assert (C0 : ((m * st - ph + st - 1) / st = m)%nat).
  { specialize (C m). destruct m as [|m]; [cbn [Nat.mul Nat.sub]; apply Nat.div_small; lia|]. symmetry. apply (Nat.div_unique _ _ _ (st - 1 - ph)%nat); [lia|nia]. }
  rewrite C0, seq_app, map_app. f_equal. cbn [Nat.add]. rewrite map_map. replace (seq m ((b - ph + st - 1) / st)) with (map (fun k => m + k)%nat (seq 0 ((b - ph + st - 1) / st))).
  - rewrite map_map. apply map_ext. intros. nia.
  - generalize ((b - ph + st - 1) / st)%nat as k. intros k. revert m C0. clear. intros m _. revert m. induction k as [|k IH]; intros m; auto. rewrite !seq_S, map_app, IH. reflexivity.
Qed.

(** *** Levels and demapping *)
Lemma round_iff q n : round_half_even q = n <-> ((inject_Z n - (1 # 2) < q /\ q < inject_Z n + (1 # 2)) \/ (Z.even n = true /\ (q == inject_Z n - (1 # 2) \/ q == inject_Z n + (1 # 2))))%Q.
Proof.
  destruct q as [a d]. unfold inject_Z, Qlt, Qeq, Qminus, Qplus, Qopp, round_half_even, Qfloor. cbn [Qnum Qden]. rewrite ?Pos.mul_1_l, ?Pos2Z.inj_mul.
  pose proof (Z.div_mod a (Zpos d) ltac:(lia)) as E. pose proof (Z.mod_pos_bound a (Zpos d) ltac:(lia)) as M. set (f := a / Zpos d) in *. set (r := a mod Zpos d) in *. clearbody f r.
  replace (a - f * Zpos d) with r by lia. set (D := Zpos d) in *. assert (0 < D) by (unfold D; lia). clearbody D. subst a.
  destruct (Z.compare_spec (2 * r) D) as [C|C|C].
  - destruct (Z.even f) eqn:EV.
    + split; [intros <-; right; split; auto; right; nia|]. intros [[H1 H2]|[H1 [H2|H2]]].
      * exfalso. assert (2 * n - 1 < 2 * f + 1) by nia. assert (2 * f + 1 < 2 * n + 1) by nia. lia.
      * assert (2 * n - 1 = 2 * f + 1) by nia. assert (n = Z.succ f) by lia. subst n. rewrite Z.even_succ, <- Z.negb_even, EV in H1. discriminate H1.
      * assert (2 * n + 1 = 2 * f + 1) by nia. lia.
    + assert (EV1 : Z.even (f + 1) = true) by (change (f + 1) with (Z.succ f); rewrite Z.even_succ, <- Z.negb_even, EV; reflexivity).
      split; [intros <-; right; split; auto; left; nia|]. intros [[H1 H2]|[H1 [H2|H2]]].
      * exfalso. assert (2 * n - 1 < 2 * f + 1) by nia. assert (2 * f + 1 < 2 * n + 1) by nia. lia.
      * assert (2 * n - 1 = 2 * f + 1) by nia. lia.
      * assert (2 * n + 1 = 2 * f + 1) by nia. assert (n = f) by lia. subst n. congruence.
  - split; [intros <-; left; nia|]. intros [[H1 H2]|[H1 [H2|H2]]].
    + assert (2 * n - 1 < 2 * f + 1) by nia. assert (2 * f < 2 * n + 1) by nia. lia.
    + exfalso. assert (2 * f < 2 * n - 1 + 1) by nia. assert (2 * n - 1 < 2 * f + 1) by nia. lia.
    + exfalso. assert (2 * f < 2 * n + 1 + 1) by nia. assert (2 * n + 1 < 2 * f + 1) by nia. assert (2 * f - 1 < 2 * n + 1) by nia. lia.
  - split; [intros <-; left; nia|]. intros [[H1 H2]|[H1 [H2|H2]]].
    + assert (2 * n - 1 < 2 * f + 2) by nia. assert (2 * f + 1 < 2 * n + 1) by nia. lia.
    + exfalso. assert (2 * f + 1 < 2 * n - 1) by nia. assert (2 * n - 1 < 2 * f + 2) by nia. lia.
    + exfalso. assert (2 * f + 1 < 2 * n + 1) by nia. assert (2 * n + 1 < 2 * f + 2) by nia. lia.
Qed.
Definition top_level (c : constellation) : Z := match c with PAM4 => 3 | _ => 1 end.
(** The receiver levels. *)
Lemma rx_levels_eq c amp f m : amp <> 0%Qc -> mapping_data_init c (map ofZ (get_levels c)) amp f = Done (Ok m) ->
  rx_level_vec m = map (fun l => (ofZ l / ofZ (top_level c) * f)%Qc) (get_levels c) /\ md_levels m = map (fun l => (ofZ l / ofZ (top_level c) * (amp / ofZ 2))%Qc) (get_levels c) /\ md_constel m = c.
Proof.
  intros A H. unfold mapping_data_init in H. assert (M : max_abs (map ofZ (get_levels c)) = ofZ (top_level c)) by (destruct c; vm_compute; apply Qc_is_canon; reflexivity).
  rewrite M in H. assert (Z2 : ofZ (top_level c) <> 0%Qc) by (destruct c; discriminate).
  replace (Qceqb (ofZ (top_level c)) (ofZ 0)) with false in H by (destruct c; reflexivity).
  assert (H' : Done (Ok (mk_md c (map (fun l => (l / ofZ (top_level c) * amp / ofZ 2)%Qc) (map ofZ (get_levels c))) amp f)) = Done (Ok m)) by (destruct c; exact H).
  clear H. injection H' as <-. unfold rx_level_vec. cbn [md_levels md_amp md_rx_factor md_constel]. rewrite !map_map. repeat split; apply map_ext; intros l; field; repeat split; auto; discriminate.
Qed.
Lemma mapping_data_defined c amp f : exists m, mapping_data_init c (map ofZ (get_levels c)) amp f = Done (Ok m).
Proof. destruct c; vm_compute; eexists; reflexivity. Qed.
Definition demap_arg (c : constellation) (l : Z) (f : Qc) : Q := ((inject_Z l / inject_Z (top_level c) * f - inject_Z (hd 0%Z (get_levels c))) / inject_Z (lstep c))%Q.
Lemma round_comp p q : (p == q)%Q -> round_half_even p = round_half_even q.
Proof. intros E. apply round_iff. pose proof (proj1 (round_iff q _) eq_refl) as H. revert H. generalize (round_half_even q). intros n H. rewrite E. exact H. Qed.
Lemma demap_level c l f : demap_idx (get_levels c) (this (ofZ l / ofZ (top_level c) * f)%Qc) = round_half_even (demap_arg c l f).
Proof.
  unfold demap_idx. apply round_comp. unfold demap_arg. assert (E : (this (ofZ l / ofZ (top_level c) * f)%Qc == inject_Z l / inject_Z (top_level c) * f)%Q).
  { unfold ofZ. cbn [Qcmult Qcdiv Qcinv this Q2Qc]. rewrite !Qred_correct. reflexivity. }
  rewrite E. destruct c; reflexivity.
Qed.
Lemma scale_iff c f : (0 < f)%Qc -> (scale_fits c f <-> round_half_even (demap_arg c (top_level c) f) = Z.of_nat (length (get_levels c) - 1)).
Proof.
  intros H. unfold Qclt in H. cbn in H. rewrite round_iff. destruct f as [q C]. unfold demap_arg, scale_fits, Qclt, Qcle, ofZ in *. cbn [this Q2Qc Qcdiv Qcinv Qcmult] in *.
  destruct c; cbn [get_levels hd top_level lstep length Nat.sub Z.of_nat Z.even]; rewrite ?Qred_correct; unfold Qdiv, inject_Z in *; cbn in *; split; intros X;
  try (left; lra); try (destruct X as [X|[X _]]; [lra|discriminate X]); try (destruct X as [X|[X [Y|Y]]]; lra).
  destruct (Qlt_le_dec (1 # 2) q) as [L|L]; [|right; split; [reflexivity|left; lra]]. destruct (Qlt_le_dec q (3 # 2)); [left; lra|right; split; [reflexivity|right; lra]].
Qed.
Lemma scale_all c f i : scale_fits c f -> (i < length (get_levels c))%nat -> round_half_even (demap_arg c (nth i (get_levels c) 0) f) = Z.of_nat i.
Proof.
  intros H Hi. rewrite round_iff. destruct f as [q C]. unfold demap_arg, scale_fits, Qclt, Qcle, ofZ in *. cbn [this Q2Qc Qcdiv Qcinv Qcmult] in *.
  destruct c; cbn [get_levels hd top_level lstep length] in *; rewrite ?Qred_correct in H; unfold Qdiv, inject_Z in *; cbn in H;
  (destruct i as [|[|[|[|i]]]]; try (exfalso; cbn in Hi; lia)); cbn; try (left; lra).
  - destruct (Qlt_le_dec (1 # 2) q) as [L|L]; [|right; split; [reflexivity|right; lra]]. destruct (Qlt_le_dec q (3 # 2)); [left; lra|right; split; [reflexivity|left; lra]].
  - destruct (Qlt_le_dec (1 # 2) q) as [L|L]; [|right; split; [reflexivity|left; lra]]. destruct (Qlt_le_dec q (3 # 2)); [left; lra|right; split; [reflexivity|right; lra]].
Qed.
Lemma np_get_seq n z i : 0 <= z -> np_get (map Z.of_nat (seq 0 n)) z = Ok (Z.of_nat i) -> z = Z.of_nat i /\ (i < n)%nat.
Proof.
  intros H. replace z with (Z.of_nat (Z.to_nat z)) at 1 by lia. destruct (Nat.lt_ge_cases (Z.to_nat z) n) as [L|L].
  - rewrite (np_get_nth _ _ 0) by (rewrite map_length, seq_length; auto). rewrite nth_map_seq by auto. cbn [Nat.add]. intros [= E]. lia.
  - assert (NI : np_index (length (map Z.of_nat (seq 0 n))) (Z.of_nat (Z.to_nat z)) = None).
    { unfold np_index. rewrite map_length, seq_length. rewrite (proj2 (Z.ltb_ge (Z.of_nat (Z.to_nat z)) (Z.of_nat n))) by lia. rewrite (proj2 (Z.ltb_ge (Z.of_nat (Z.to_nat z)) 0)) by lia. now rewrite !andb_false_r. }
    unfold np_get. rewrite NI. discriminate.
Qed.
Lemma Forall2_seq {A} (P : A -> nat -> Prop) (d : A) l : forall k, (forall i, (i < length l)%nat -> P (nth i l d) (k + i)%nat) -> Forall2 P l (seq k (length l)).
Proof.
  induction l as [|a l IH]; intros k H; cbn [length seq]; constructor.
  - specialize (H 0%nat). rewrite Nat.add_0_r in H. apply H. cbn; lia.
  - apply IH. intros i Hi. specialize (H (S i)). rewrite Nat.add_succ_r in H. apply H. cbn; lia.
Qed.
Lemma top_nonneg c f : (0 < f)%Qc -> 0 <= round_half_even (demap_arg c (top_level c) f).
Proof.
  intros H. destruct (Z.lt_ge_cases (round_half_even (demap_arg c (top_level c) f)) 0) as [N|N]; [|lia]. exfalso. set (n := round_half_even (demap_arg c (top_level c) f)) in *.
  assert (E : round_half_even (demap_arg c (top_level c) f) = n) by reflexivity. clearbody n. apply round_iff in E.
  assert (Q : (inject_Z n <= inject_Z (-1))%Q) by (rewrite <- Zle_Qle; lia). destruct f as [q C]. unfold Qclt in H. cbn [this] in H. unfold demap_arg in E. cbn [this] in E.
  assert (P : (0 <= demap_arg c (top_level c) {| this := q; canon := C |})%Q).
  { unfold demap_arg. cbn [this]. destruct c; cbn; unfold Qdiv, inject_Z; cbn in *; lra. }
  unfold demap_arg in P. cbn [this] in P. set (v := (_ / _)%Q) in *. clearbody v. unfold inject_Z in Q at 2. destruct E as [[E1 E2]|[_ [E|E]]]; lra.
Qed.
Lemma demap_all c amp f m : (0 < f)%Qc -> amp <> 0%Qc -> mapping_data_init c (map ofZ (get_levels c)) amp f = Done (Ok m) ->
  (fst (demapping c false (mk_nda [length (get_levels c)] (map this (rx_level_vec m)))) = Ok (vec (map Z.of_nat (seq 0 (length (get_levels c))))) <-> scale_fits c f).
Proof.
  intros F A M. destruct (rx_levels_eq _ _ _ _ A M) as (E & _ & _). rewrite E, map_map. set (n := length (get_levels c)).
  assert (IDX : forall l, demap_idx (get_levels c) (this (ofZ l / ofZ (top_level c) * f)%Qc) = round_half_even (demap_arg c l f)) by (intros; apply demap_level).
  assert (NT : nth (n - 1) (get_levels c) 0 = top_level c) by (destruct c; reflexivity). assert (NP : (0 < n)%nat) by (destruct c; cbn; lia).
  split.
  - unfold demapping, demapping_with. cbn [fst data shape]. fold n. rewrite map_map. intros H. apply bind_ok in H. destruct H as (d & H1 & H2).
    unfold reshape in H2. destruct (_ =? _)%nat eqn:EL; [|discriminate H2]. injection H2 as H2. subst d. unfold np_take in H1. destruct (map_res_inv _ _ _ H1) as [L N].
    specialize (N (n - 1)%nat 0 0). rewrite map_length in N. specialize (N ltac:(fold n; lia)).
    rewrite (map_nth_lt _ _ (n - 1)%nat 0) in N by (fold n; lia). rewrite NT, IDX in N. rewrite nth_map_seq in N by lia. cbn [Nat.add] in N.
    apply np_get_seq in N; [|now apply top_nonneg]. apply scale_iff; auto. fold n. apply N.
  - intros S. unfold demapping. fold n. unfold vec. rewrite map_length, seq_length.
    rewrite (demapping_with_ok _ _ n false _ (seq 0 n)).
    + reflexivity.
    + cbn [data shape]. rewrite map_length. cbn. lia.
    + cbn [data]. assert (LN : length (map (fun l => this (ofZ l / ofZ (top_level c) * f)%Qc) (get_levels c)) = n) by (now rewrite map_length). rewrite <- LN at 1.
      apply (Forall2_seq _ 0%Q). intros i Hi. rewrite LN in Hi. cbn [Nat.add]. split; [exact Hi|]. rewrite (map_nth_lt _ _ i 0) by exact Hi. rewrite IDX. now apply scale_all.
Qed.
