(** Proofs about Filter and FilterTII (C39, C40). *)
From Coq Require Import Qround.
From Verif Require Import Py B_list PyQ B_qc M_aux M_slicer P_slicer M_filter S_rx S_filter.
Open Scope Z_scope.
Ltac Zify.zify_post_hook ::= Z.div_mod_to_equations.

Lemma dotQ_sum u v : length u = length v -> dotQ u v = sumQ (map (fun i => nth i u 0 * nth i v 0)%Qc (seq 0 (length u))).
Proof.
  unfold dotQ. revert v. induction u as [|x u IH]; intros [|y v] H; try discriminate; auto. cbn [map2 length seq map]. rewrite !sumQ_cons. cbn [nth]. f_equal.
  rewrite IH by (cbn in H; lia). rewrite <- seq_shift, map_map. reflexivity.
Qed.
Lemma sumQ_shift (f : nat -> Qc) k n : sumQ (map f (seq (S k) n)) = sumQ (map (fun i => f (S i)) (seq k n)).
Proof. now rewrite <- seq_shift, map_map. Qed.
Lemma np_dot_ok u v : length u = length v -> np_dot u v = Ok (dotQ u v).
Proof. intros H. unfold np_dot. now rewrite (proj2 (Nat.eqb_eq _ _) H). Qed.
Lemma at_time_cons x mem l k : at_time (x :: mem) l k = at_time mem (x :: l) (k + 1).
Proof.
  unfold at_time. destruct (Z.ltb_spec k 0), (Z.ltb_spec (k + 1) 0); try lia.
  - replace (Z.to_nat (- k - 1)) with (S (Z.to_nat (- (k + 1) - 1))) by lia. reflexivity.
  - replace (Z.to_nat (- k - 1)) with 0%nat by lia. replace (Z.to_nat (k + 1)) with 0%nat by lia. reflexivity.
  - replace (Z.to_nat (k + 1)) with (S (Z.to_nat k)) by lia. reflexivity.
Qed.
Lemma at_time_firstn m mem l k : - k <= Z.of_nat m -> at_time (firstn m mem) l k = at_time mem l k.
Proof. intros H. unfold at_time. destruct (Z.ltb_spec k 0); auto. apply nth_firstn. lia. Qed.
Lemma at_time_zero k l n : at_time (repeat 0%Qc k) l n = at_time [] l n.
Proof.
  unfold at_time. destruct (n <? 0); auto. replace (nth (Z.to_nat (- n - 1)) [] 0%Qc) with 0%Qc by (now destruct (Z.to_nat (- n - 1))).
  destruct (Nat.lt_ge_cases (Z.to_nat (- n - 1)) k); [now apply repeat_nth|apply nth_overflow; rewrite repeat_length; lia].
Qed.
Lemma tap_sum_ext c m m' l l' f n : (forall i, (f <= i < length c)%nat -> at_time m l (Z.of_nat n - Z.of_nat i) = at_time m' l' (Z.of_nat n - Z.of_nat i)) ->
  tap_sum c m l f n = tap_sum c m' l' f n.
Proof. intros H. apply sumQ_map_ext. intros i Hi. apply in_seq in Hi. rewrite H by lia. reflexivity. Qed.
Lemma tap_sum_zero c k l f n : tap_sum c (repeat 0%Qc k) l f n = tap_sum c [] l f n.
Proof. apply tap_sum_ext. intros. apply at_time_zero. Qed.
(** One step later: the newest sample has moved from the memory to the signal. *)
Lemma tap_sum_step c m mem x l f n : (length c <= m + 1)%nat \/ (length c <= m)%nat ->
  tap_sum c (firstn m (x :: mem)) l f n = tap_sum c mem (x :: l) f (S n).
Proof.
  intros H. apply sumQ_map_ext. intros i Hi. apply in_seq in Hi. f_equal. rewrite at_time_firstn by lia. rewrite at_time_cons. f_equal. lia.
Qed.
Lemma tap_sum_0 c zf x l : length c = length zf -> tap_sum c zf (x :: l) 0 0 = dotQ c (firstn (length c) (x :: zf)).
Proof.
  intros H. rewrite dotQ_sum by (rewrite firstn_length; cbn [length]; lia). unfold tap_sum. rewrite Nat.sub_0_r. apply sumQ_map_ext. intros i Hi. apply in_seq in Hi. f_equal.
  rewrite nth_firstn by lia. unfold at_time. destruct (Z.ltb_spec (Z.of_nat 0 - Z.of_nat i) 0).
  - destruct i; [lia|]. cbn [nth]. f_equal. lia.
  - replace i with 0%nat by lia. reflexivity.
Qed.
Lemma tap_sum_1 c zi y l : length zi = (length c - 1)%nat -> tap_sum c zi (y :: l) 1 0 = dotQ (tl c) zi.
Proof.
  intros H. rewrite dotQ_sum by (rewrite H; destruct c; cbn; lia). unfold tap_sum. rewrite sumQ_shift. replace (length (tl c)) with (length c - 1)%nat by (destruct c; cbn; lia).
  apply sumQ_map_ext. intros i Hi. apply in_seq in Hi. f_equal.
  - destruct c; [cbn in Hi; lia|reflexivity].
  - unfold at_time. destruct (Z.ltb_spec (Z.of_nat 0 - Z.of_nat (S i)) 0); [f_equal; lia|lia].
Qed.

(** Chunks: generic state machines. *)
Section Run.
  Context {St : Type} (process : St -> Qc -> res (Qc * St)).
  Lemma run_chunk_app dt u : forall s v, run_chunk process dt s (u ++ v) =
    (r <- run_chunk process dt s u ;; q <- run_chunk process dt (snd r) v ;; Ok (fst r ++ fst q, snd q)).
  Proof.
    induction u as [|x u IH]; intros s v; cbn [app run_chunk bind fst snd].
    - destruct (run_chunk process dt s v) as [[y s']|e]; reflexivity.
    - destruct (process s x) as [[y s']|e]; cbn [bind]; auto. rewrite IH. destruct (run_chunk process dt s' u) as [[ys s'']|e]; cbn [bind fst snd]; auto.
      destruct (run_chunk process dt s'' v) as [[zs s3]|e]; reflexivity.
  Qed.
  Lemma run_chunk_store dt chunk : forall s, run_chunk process dt s chunk = (r <- run_chunk process Float s chunk ;; Ok (map (store dt) (fst r), snd r)).
  Proof.
    induction chunk as [|x u IH]; intros s; cbn [run_chunk bind fst snd map]; auto. destruct (process s x) as [[y s']|e]; cbn [bind]; auto.
    rewrite IH. destruct (run_chunk process Float s' u) as [[ys s'']|e]; cbn [bind fst snd map store]; auto.
  Qed.
End Run.

(** Storing in an integer array. *)
Lemma trunc_toward_zero y : toward_zero y (trunc y).
Proof.
  unfold toward_zero, trunc. assert (Z0 : forall z, this (ofZ z) == inject_Z z) by (intros z; unfold ofZ; cbn [this Q2Qc]; apply Qred_correct).
  destruct (Qcltb y 0) eqn:E.
  - right. apply Qcltb_spec in E. split; [exact E|]. unfold Qcle, Qclt. rewrite !Z0. split; [apply Qle_ceiling|]. apply Qceiling_lt.
  - left. apply Qcltb_false in E. split; [exact E|]. unfold Qcle, Qclt. rewrite !Z0. split; [apply Qfloor_le|]. apply Qlt_floor.
Qed.

(** Filter *)
Lemma rev_cons_app {A} (x : A) u z : rev (x :: u) ++ z = rev u ++ x :: z.
Proof. cbn [rev]. now rewrite <- app_assoc. Qed.
Lemma firstn_rev_app m x u z : firstn m (rev u ++ firstn m (x :: z)) = firstn m (rev (x :: u) ++ z) :> list Qc.
Proof.
  rewrite rev_cons_app. rewrite !firstn_app. f_equal. rewrite firstn_firstn. f_equal. lia.
Qed.
Lemma filter_run b a : forall chunk zf zi, a <> [] -> nth 0 a 0%Qc <> 0%Qc -> length zf = length b -> length zi = (length a - 1)%nat ->
  exists y, filter_call (mk_filter b a zf zi) Float chunk =
      Ok (y, mk_filter b a (firstn (length b) (rev chunk ++ zf)) (firstn (length a - 1) (rev y ++ zi))) /\
    difference_equation b a zf zi [] chunk y y.
Proof.
  unfold filter_call. induction chunk as [|x chunk IH]; intros zf zi Na A0 Lf Li.
  - exists []. cbn [run_chunk rev app]. rewrite !firstn_all2 by lia. split; auto. split; auto. intros n H. cbn in H. lia.
  - cbn [run_chunk]. unfold filter_process at 1. cbn [f_b f_a f_zfir f_ziir]. unfold appendleft.
    rewrite np_dot_ok by (rewrite firstn_length; cbn [length]; lia). cbn [bind]. rewrite np_dot_ok by (rewrite Li; destruct a; cbn; lia). cbn [bind].
    rewrite (np_get_Z a 0 0%Qc) by (destruct a; [congruence|cbn; lia]). change (Z.to_nat 0) with 0%nat. cbn [bind].
    set (y := ((dotQ b (firstn (length b) (x :: zf)) - dotQ (tl a) zi) / nth 0 a 0)%Qc).
    destruct (IH (firstn (length b) (x :: zf)) (firstn (length a - 1) (y :: zi))) as (ys & E & LE & D); auto.
    { rewrite firstn_length. cbn [length]. lia. } { rewrite firstn_length. cbn [length]. lia. }
    rewrite E. cbn [bind fst snd store]. exists (y :: ys). split.
    + f_equal. f_equal. f_equal; [apply firstn_rev_app|]. rewrite rev_cons_app, !firstn_app. f_equal. rewrite firstn_firstn. f_equal. lia.
    + split; [cbn; lia|]. intros [|n] Hn.
      * cbn [nth]. rewrite tap_sum_0, tap_sum_1 by auto. unfold y. replace (nth 0 [] 0%Qc) with 0%Qc by auto. field. exact A0.
      * cbn [length] in Hn. specialize (D n ltac:(lia)). rewrite !tap_sum_step in D by (destruct a; cbn [length]; lia). cbn [nth].
        rewrite D. f_equal. now destruct n.
Qed.

(** FilterTII, with any feedback function *)
Lemma bvec_nth c m k : nth k (tl c ++ repeat 0%Qc m) 0%Qc = nth (S k) c 0%Qc.
Proof.
  destruct c as [|c0 c]; cbn [tl nth].
  - cbn [app]. destruct (Nat.lt_ge_cases k m); [now apply repeat_nth|apply nth_overflow; rewrite repeat_length; lia].
  - destruct (Nat.lt_ge_cases k (length c)); [now apply app_nth1|]. rewrite app_nth2 by lia. rewrite (nth_overflow c) by lia.
    destruct (Nat.lt_ge_cases (k - length c) m); [now apply repeat_nth|apply nth_overflow; rewrite repeat_length; lia].
Qed.
Lemma tap_sum_peel c x l f n : (f <= 1)%nat -> tap_sum c [] (x :: l) f (S n) = (tap_sum c [] l f n + nth (S n) c 0 * x)%Qc.
Proof.
  intros Hf. unfold tap_sum.
  assert (E : forall K, sumQ (map (fun i => nth i c 0 * at_time [] (x :: l) (Z.of_nat (S n) - Z.of_nat i))%Qc (seq f K)) =
              (sumQ (map (fun i => nth i c 0 * at_time [] l (Z.of_nat n - Z.of_nat i))%Qc (seq f K)) + if (S n <? f + K)%nat then nth (S n) c 0 * x else 0)%Qc).
  { induction K as [|K IH].
    - cbn [seq map]. destruct (Nat.ltb_spec (S n) (f + 0)); [lia|]. change (sumQ []) with 0%Qc. ring.
    - rewrite seq_S, !map_app, !sumQ_app, IH. cbn [map]. rewrite !sumQ_cons. change (sumQ []) with 0%Qc.
      assert (A : at_time [] (x :: l) (Z.of_nat (S n) - Z.of_nat (f + K)) = if (S n =? f + K)%nat then x else at_time [] l (Z.of_nat n - Z.of_nat (f + K))).
      { destruct (Nat.eqb_spec (S n) (f + K)) as [<-|Ne].
        - unfold at_time. rewrite Z.sub_diag. reflexivity.
        - replace (Z.of_nat (S n) - Z.of_nat (f + K)) with ((Z.of_nat n - Z.of_nat (f + K)) + 1) by lia. rewrite <- at_time_cons. unfold at_time.
          destruct (Z.ltb_spec (Z.of_nat n - Z.of_nat (f + K)) 0); auto. destruct (Z.to_nat (- (Z.of_nat n - Z.of_nat (f + K)) - 1)) eqn:Q; [lia|]. cbn [nth]. now destruct n0. }
      rewrite A. destruct (Nat.eqb_spec (S n) (f + K)) as [Eq|Ne].
      + rewrite <- Eq. rewrite Nat.ltb_irrefl. replace (S n <? f + S K)%nat with true by (symmetry; apply Nat.ltb_lt; lia).
        assert (Z0 : at_time [] l (Z.of_nat n - Z.of_nat (S n)) = 0%Qc).
        { unfold at_time. destruct (Z.ltb_spec (Z.of_nat n - Z.of_nat (S n)) 0); [|lia]. now destruct (Z.to_nat _). }
        rewrite Z0. ring.
      + replace (S n <? f + S K)%nat with (S n <? f + K)%nat; [ring|]. destruct (Nat.ltb_spec (S n) (f + K)), (Nat.ltb_spec (S n) (f + S K)); auto; lia. }
  rewrite E. f_equal. destruct (Nat.ltb_spec (S n) (f + (length c - f))) as [H|H]; auto. rewrite (nth_overflow c) by lia. ring.
Qed.
Lemma tap_sum_first c x l : tap_sum c [] (x :: l) 0 0 = (nth 0 c 0 * x)%Qc.
Proof.
  unfold tap_sum. destruct c as [|c0 c]; [cbn [length seq map Nat.sub nth]; change (sumQ []) with 0%Qc; ring|]. cbn [length]. rewrite Nat.sub_0_r. cbn [seq map]. rewrite sumQ_cons.
  rewrite (sumQ_map_ext _ (fun _ => 0%Qc)).
  - replace (sumQ (map (fun _ => 0%Qc) (seq 1 (length c)))) with 0%Qc.
    + cbn [nth]. unfold at_time. change (Z.of_nat 0 - Z.of_nat 0) with 0. change (0 <? 0) with false. cbv iota. change (Z.to_nat 0) with 0%nat. cbn [nth]. ring.
    + generalize (seq 1 (length c)). intros q. induction q; cbn [map]; rewrite ?sumQ_cons; auto. rewrite <- IHq. ring.
  - intros i Hi. apply in_seq in Hi. unfold at_time. destruct (Z.ltb_spec (Z.of_nat 0 - Z.of_nat i) 0); [|lia]. replace (nth _ [] 0%Qc) with 0%Qc by (now destruct (Z.to_nat _)). ring.
Qed.
Lemma tap_sum_first1 c l : tap_sum c [] l 1 0 = 0%Qc.
Proof.
  unfold tap_sum. rewrite (sumQ_map_ext _ (fun _ => 0%Qc)).
  - generalize (seq 1 (length c - 1)). intros q. induction q; cbn [map]; rewrite ?sumQ_cons; auto. rewrite IHq. ring.
  - intros i Hi. apply in_seq in Hi. unfold at_time. destruct (Z.ltb_spec (Z.of_nat 0 - Z.of_nat i) 0); [|lia]. replace (nth _ [] 0%Qc) with 0%Qc by (now destruct (Z.to_nat _)). ring.
Qed.
Definition tii_of (b a z : list Qc) : tii_state :=
  mk_tii b a z (tl b ++ repeat 0%Qc (length z - (length b - 1))) (tl a ++ repeat 0%Qc (length z - (length a - 1))).
Lemma tii_init_ok b a z : b <> [] -> a <> [] -> length z = (Nat.max (length b) (length a) - 1)%nat -> tii_init b a (Some z) = Ok (tii_of b a z).
Proof.
  intros Nb Na L. unfold tii_init. assert (length b <> 0 /\ length a <> 0)%nat by (destruct b, a; cbn; auto; congruence).
  replace (Z.of_nat (length z) =? _) with true by (symmetry; apply Z.eqb_eq; lia). cbn [bind]. unfold tii_of. repeat f_equal; lia.
Qed.
Lemma tii_run feedback (fb : Qc -> Qc) b a : (forall y, feedback y = Ok (fb y)) -> b <> [] -> a <> [] -> nth 0 a 0%Qc <> 0%Qc ->
  forall chunk z, z <> [] -> (length b - 1 <= length z)%nat -> (length a - 1 <= length z)%nat ->
  exists y z', run_chunk (tii_process_with feedback) Float (tii_of b a z) chunk = Ok (y, tii_of b a z') /\ length z' = length z /\
    difference_equation b a [] [] z chunk (map fb y) y.
Proof.
  intros FB Nb Na A0. induction chunk as [|x chunk IH]; intros z Nz Lb La.
  - exists [], z. cbn [run_chunk]. split; auto. split; auto. split; auto. intros n H. cbn in H. lia.
  - cbn [run_chunk]. unfold tii_process_with at 1. cbn [tii_of t_b t_a t_z t_bvec t_avec].
    rewrite (np_get_Z b 0 0%Qc), (np_get_Z z 0 0%Qc), (np_get_Z a 0 0%Qc) by (destruct a, b, z; cbn [length]; try congruence; lia). change (Z.to_nat 0) with 0%nat. cbn [bind].
    set (y := ((nth 0 b 0 * x + nth 0 z 0) / nth 0 a 0)%Qc). rewrite FB. cbn [bind].
    set (bv := tl b ++ repeat 0%Qc (length z - (length b - 1))). set (av := tl a ++ repeat 0%Qc (length z - (length a - 1))).
    assert (Lbv : length bv = length z) by (unfold bv; rewrite app_length, repeat_length; destruct b; cbn [tl length] in *; [congruence|lia]).
    assert (Lav : length av = length z) by (unfold av; rewrite app_length, repeat_length; destruct a; cbn [tl length] in *; [congruence|lia]).
    assert (Lz1 : length (tl z ++ [ofZ 0]) = length z) by (rewrite app_length; destruct z; cbn [tl length] in *; [congruence|lia]).
    unfold np_add, np_sub. rewrite map_length, Lz1, Lbv, Nat.eqb_refl. cbn [bind]. rewrite map2_length, map_length, map_length, Lz1, Lbv, Lav, Nat.min_id, Nat.eqb_refl. cbn [bind].
    set (z' := map2 Qcminus (map2 Qcplus (map (fun c => x * c)%Qc bv) (tl z ++ [ofZ 0])) (map (fun c => fb y * c)%Qc av)).
    assert (Lz' : length z' = length z) by (unfold z'; rewrite !map2_length, !map_length; lia).
    assert (Nz' : z' <> []) by (intros Q; rewrite Q in Lz'; destruct z; [congruence|discriminate]).
    destruct (IH z' Nz' ltac:(lia) ltac:(lia)) as (ys & zz & E & Lzz & LE & D).
    unfold tii_of in E. rewrite Lz' in E. fold bv av in E. rewrite E. cbn [bind fst snd store].
    exists (y :: ys), zz. split; [reflexivity|]. split; [lia|]. split; [cbn; lia|]. intros [|n] Hn.
    + cbn [nth map]. rewrite tap_sum_first, tap_sum_first1. unfold y. replace (nth 0 z 0%Qc) with (hd 0%Qc z) by (now destruct z). field. exact A0.
    + cbn [length] in Hn. specialize (D n ltac:(lia)). cbn [nth map]. rewrite !tap_sum_peel by lia. rewrite D.
      assert (Zn : nth n z' 0%Qc = (x * nth (S n) b 0 + nth (S n) z 0 - fb y * nth (S n) a 0)%Qc).
      { destruct (Nat.lt_ge_cases n (length z)) as [H|H].
        - unfold z'. rewrite (map2_nth _ _ _ _ 0%Qc 0%Qc) by (rewrite ?map2_length, ?map_length; lia).
          rewrite (map2_nth _ _ _ _ 0%Qc 0%Qc) by (rewrite ?map2_length, ?map_length; lia). rewrite !(map_nth_lt _ _ _ 0%Qc) by lia.
          unfold bv, av. rewrite !bvec_nth. f_equal. f_equal. destruct z as [|z0 z]; [congruence|]. cbn [tl nth].
          cbn [length] in H. destruct (Nat.eq_dec n (length z)) as [->|Ne].
          + rewrite app_nth2, Nat.sub_diag by lia. rewrite (nth_overflow z) by lia. reflexivity.
          + apply app_nth1. lia.
        - rewrite !nth_overflow by lia. ring. }
      rewrite Zn. ring.
Qed.
(** Solutions are unique. *)
Lemma difference_unique b a mx mv drive x y y' : nth 0 a 0%Qc <> 0%Qc ->
  difference_equation b a mx mv drive x y y -> difference_equation b a mx mv drive x y' y' -> y = y'.
Proof.
  intros A0 [L D] [L' D']. apply (nth_ext_def 0%Qc); [lia|]. intros n. induction n as [n IH] using (well_founded_induction lt_wf). intros Hn.
  assert (E : (nth 0 a 0 * nth n y 0 = nth 0 a 0 * nth n y' 0)%Qc).
  { rewrite D, D' by lia. f_equal. f_equal. apply tap_sum_ext. intros i Hi. unfold at_time. destruct (Z.ltb_spec (Z.of_nat n - Z.of_nat i) 0); auto. apply IH; lia. }
  apply (f_equal (fun q => q / nth 0 a 0)%Qc) in E. 
  replace (nth 0 a 0 * nth n y 0 / nth 0 a 0)%Qc with (nth n y 0%Qc) in E by (field; auto).
  replace (nth 0 a 0 * nth n y' 0 / nth 0 a 0)%Qc with (nth n y' 0%Qc) in E by (field; auto). exact E.
Qed.
