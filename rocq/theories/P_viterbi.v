(** Proofs for the Viterbi decoder. *)
From Verif Require Import Py B_list M_aux S_aux P_gf2 P_aux M_coding M_linear S_linear P_coding P_linear M_conv S_conv P_conv P_trellis M_convdec P_convdec.
From Coq Require Import QArith.
Open Scope Z_scope.
Ltac Zify.zify_post_hook ::= Z.div_mod_to_equations.

Lemma NoDup_map_inj_in {A B} (g : A -> B) l : (forall x y, In x l -> In y l -> g x = g y -> x = y) -> NoDup l -> NoDup (map g l).
Proof.
  intros I N. induction N as [|a l Ha N IH]; [constructor|]. cbn [map]. constructor.
  - intros H. apply in_map_iff in H. destruct H as (b & E & Hb). apply Ha. rewrite <- (I b a); auto; [now right|now left].
  - apply IH. intros x y Hx Hy. apply I; now right.
Qed.
Lemma map_nth_seq {A} (l : list A) d : map (fun i => nth i l d) (seq 0 (length l)) = l.
Proof. apply (nth_ext_def d); [now rewrite map_length, seq_length|]. intros i Hi. rewrite map_length, seq_length in Hi. now rewrite nth_map_seq. Qed.
Section vit.
Variable c : conv_code.
Hypothesis HS : code_shape c.
Hypothesis HT : trellis_shape c.
Hypothesis HV : check_valid_conv [] c = Ok tt.
Notation n := (length (gen c)).
Notation N := (n_out c).
Let M := all_cells c.
Definition st_of (j : nat) : list Z := nth j (get_bin_perm M) [].
Lemma st_of_uint j : (j < 2 ^ M)%nat -> uint2bin (mem_total c) (Z.of_nat j) = st_of j.
Proof. intros H. rewrite mem_total_cells. unfold st_of. now rewrite get_bin_perm_nth. Qed.
Lemma st_of_state j : (j < 2 ^ M)%nat -> isstate c (st_of j).
Proof. intros H. apply get_bin_perm_In. unfold st_of. apply nth_In. now rewrite get_bin_perm_length. Qed.
Lemma st_of_inv s : isstate c s -> exists j, (j < 2 ^ M)%nat /\ st_of j = s.
Proof. intros [L B]. destruct (word_index M s L B) as (j & Hj & _ & E). eauto. Qed.
Lemma st_of_inj i j : (i < 2 ^ M)%nat -> (j < 2 ^ M)%nat -> st_of i = st_of j -> i = j.
Proof. intros Hi Hj E. apply (f_equal val_msb) in E. unfold st_of in E. rewrite !perm_val in E by auto. lia. Qed.

(** conv_from of one more chunk *)
Lemma state_after_ext s u v t : (forall k, (k < t)%nat -> chunk_at c u k = chunk_at c v k) -> state_after c s u t = state_after c s v t.
Proof.
  intros H. unfold state_after. f_equal. apply map_ext_in. intros i Hi. apply in_seq in Hi. f_equal. apply reg_hist_ext. intros k Hk.
  specialize (H k Hk). apply (f_equal (fun l => nth i l 0)) in H. unfold chunk_at in H. rewrite !nth_map_seq in H by lia. exact H.
Qed.
Lemma chunk_app_l w i t k : length w = (n * t)%nat -> (k < t)%nat -> chunk_at c (w ++ i) k = chunk_at c w k.
Proof. intros L H. unfold chunk_at. apply map_ext_in. intros a Ha. apply in_seq in Ha. unfold in_bit. apply app_nth1. nia. Qed.
Lemma chunk_app_r w i t : length w = (n * t)%nat -> isinput c i -> chunk_at c (w ++ i) t = i.
Proof.
  intros L [Li _]. rewrite <- (chunk_at_0 c i) at 2 by auto. unfold chunk_at. apply map_ext_in. intros a Ha. unfold in_bit. rewrite app_nth2 by nia. f_equal. nia.
Qed.
Lemma extend s w i t : isstate c s -> length w = (n * t)%nat -> bits w -> isinput c i ->
  conv_from c (unpack c s) (w ++ i) = conv_from c (unpack c s) w ++ fst (step_fun c (state_after c s w t) i) /\
  state_after c s (w ++ i) (S t) = snd (step_fun c (state_after c s w t) i).
Proof.
  intros Hs L B [Li Bi]. assert (Bwi : bits (w ++ i)) by (apply bits_app; auto).
  assert (E := step_fun_at c HS HT HV s (w ++ i) t Hs Bwi). rewrite (chunk_app_r w i t) in E by (auto; split; auto).
  rewrite (state_after_ext s (w ++ i) w t) in E by (intros; now apply (chunk_app_l w i t)). rewrite E. cbn [fst snd]. split; auto.
  assert (Hn := gen_pos c HS). unfold conv_from. rewrite (conv_steps_mult c (w ++ i) (S t)), (conv_steps_mult c w t) by (auto; rewrite ?app_length; lia).
  rewrite seq_S, map_app, concat_app. cbn [map concat Nat.add]. rewrite app_nil_r. f_equal. f_equal. apply map_ext_in. intros k Hk. apply in_seq in Hk.
  apply map_ext. intros j. apply conv_bit_ext. intros a q Ha Hq. unfold in_bit. apply app_nth1. nia.
Qed.

(** branch metrics *)
Lemma hdistZ_missing (ch : list Z) : bits ch -> length ch = N -> 0 < hdistZ ch (repeat (-1) N).
Proof.
  intros B L. assert (X := cs_out c HS). unfold hdistZ. destruct B as [|a l Ha Hl]; [simpl in L; lia|].
  destruct N as [|m]; [lia|]. cbn [repeat map2]. change (sumZ (?a :: ?l)) with (a + sumZ l).
  assert (0 <= sumZ (map2 (fun a b => Z.abs (a - b)) l (repeat (-1) m))) by apply hdistZ_nonneg. destruct Ha; subst; lia.
Qed.
Lemma out_zero ch i j : bits ch -> length ch = N -> (i < 2 ^ M)%nat -> (j < 2 ^ M)%nat -> hdistZ ch (out_tensor c (entries c) i j) = 0 ->
  isinput c (in_tensor c (entries c) i j) /\ step_fun c (st_of i) (in_tensor c (entries c) i j) = (ch, st_of j).
Proof.
  intros B L Hi Hj H. unfold out_tensor, in_tensor in *. rewrite !st_of_uint in * by auto.
  destruct (io_get (entries c) (st_of i) (st_of j)) as [[u o]|] eqn:E; [|assert (X := hdistZ_missing ch B L); lia].
  destruct (io_get_some c _ _ _ _ E) as (H1 & H2 & H3). split; auto. rewrite <- H3. f_equal.
  assert (Lo := proj1 (step_fun_out c (st_of i) u)). rewrite <- H3 in Lo. cbn [fst] in Lo. symmetry. apply hdistZ_zero; auto. congruence.
Qed.
(** condition: transitions into a state are told apart by their outputs, and no parallel transitions *)
Definition distinct_in : Prop := forall s1 s2 i1 i2, isstate c s1 -> isstate c s2 -> isinput c i1 -> isinput c i2 ->
  step_fun c s1 i1 = step_fun c s2 i2 -> s1 = s2.
Definition no_parallel : Prop := forall s i1 i2, isstate c s -> isinput c i1 -> isinput c i2 ->
  snd (step_fun c s i1) = snd (step_fun c s i2) -> i1 = i2.
Hypothesis HD : distinct_in.
Hypothesis HP : no_parallel.
Lemma out_true s i js jn : (js < 2 ^ M)%nat -> (jn < 2 ^ M)%nat -> st_of js = s -> isinput c i -> snd (step_fun c s i) = st_of jn ->
  hdistZ (fst (step_fun c s i)) (out_tensor c (entries c) js jn) = 0.
Proof.
  intros Hs Hn Es Hi E. unfold out_tensor. rewrite !st_of_uint by auto. rewrite Es, <- E.
  destruct (io_get (entries c) s (snd (step_fun c s i))) as [[u o]|] eqn:F.
  - destruct (io_get_some c _ _ _ _ F) as (H1 & H2 & H3). assert (i = u).
    { apply (HP s); auto. now rewrite <- H3. }
    subst u. rewrite <- H3. cbn [fst]. apply hdistZ_refl.
  - exfalso. apply (io_get_none c s i) in F; auto. subst. now apply st_of_state.
Qed.
Definition getp (prev : option (list (Z * list Z))) (i : nat) : Z * list Z :=
  match prev with None => (0, []) | Some pl => nth i pl (0, []) end.
(** invariant after [t] chunks of the transmission of [u] from [s] *)
Definition inv (s u : list Z) (t : nat) (prev : option (list (Z * list Z))) : Prop :=
  match prev with None => t = 0%nat | Some pl => length pl = (2 ^ M)%nat end /\
  (forall j, (j < 2 ^ M)%nat -> st_of j = state_after c s u t -> getp prev j = (0, firstn (n * t) u)) /\
  (forall j, (j < 2 ^ M)%nat -> 0 <= fst (getp prev j) /\
     (fst (getp prev j) = 0 -> exists s0, isstate c s0 /\ length (snd (getp prev j)) = (n * t)%nat /\ bits (snd (getp prev j)) /\
        state_after c s0 (snd (getp prev j)) t = st_of j /\
        conv_from c (unpack c s0) (snd (getp prev j)) = firstn (t * N) (conv_from c (unpack c s) u))).
Lemma conv_from_chunk st u t : (t < conv_steps c u)%nat ->
  firstn (S t * N) (conv_from c (unpack c st) u) = firstn (t * N) (conv_from c (unpack c st) u) ++ map (conv_bit c (unpack c st) u t) (seq 0 N).
Proof.
  intros H. unfold conv_from. replace (conv_steps c u) with (t + S (conv_steps c u - t - 1))%nat by lia.
  rewrite seq_app, map_app, concat_app. cbn [seq map concat Nat.add].
  assert (Lt : length (concat (map (fun t => map (conv_bit c (unpack c st) u t) (seq 0 N)) (seq 0 t))) = (t * N)%nat).
  { rewrite (concat_length_const N); [now rewrite map_length, seq_length|]. apply Forall_forall. intros r Hr.
    apply in_map_iff in Hr. destruct Hr as (q & <- & _). now rewrite map_length, seq_length. }
  set (A := concat (map (fun t => map (conv_bit c (unpack c st) u t) (seq 0 N)) (seq 0 t))) in *.
  set (Bk := map (conv_bit c (unpack c st) u t) (seq 0 N)). assert (LB : length Bk = N) by (unfold Bk; now rewrite map_length, seq_length).
  rewrite !firstn_app, Lt, Nat.sub_diag, firstn_O, app_nil_r. rewrite (firstn_all2 (n := (S t * N)%nat) A), (firstn_all2 (n := (t * N)%nat) A) by lia. f_equal.
  rewrite LB. replace (S t * N - t * N - N)%nat with 0%nat by lia. rewrite firstn_O, app_nil_r. apply firstn_all2. lia.
Qed.
Lemma inv_step s u t prev : isstate c s -> bits u -> length u = (n * conv_steps c u)%nat -> (t < conv_steps c u)%nat -> inv s u t prev ->
  exists p, viterbi_step c (entries c) prev (map (conv_bit c (unpack c s) u t) (seq 0 N)) = Ok p /\ inv s u (S t) (Some p).
Proof.
  intros Hs Bu Lu Ht (IL & I1 & I2). set (ch := map (conv_bit c (unpack c s) u t) (seq 0 N)).
  assert (Bch : bits ch) by (apply Forall_forall; intros y Hy; apply in_map_iff in Hy; destruct Hy as (j & <- & _); apply isbit_mod).
  assert (Lch : length ch = N) by (unfold ch; now rewrite map_length, seq_length).
  assert (Hn := gen_pos c HS).
  pose (col := fun jj => map (fun ii => hdistZ ch (out_tensor c (entries c) ii jj)) (seq 0 (2 ^ M))).
  assert (Lcol : forall j, length (col j) = (2 ^ M)%nat) by (intros; unfold col; now rewrite map_length, seq_length).
  assert (Ncol : forall i j, (i < 2 ^ M)%nat -> nth i (col j) 0 = hdistZ ch (out_tensor c (entries c) i j)) by (intros; unfold col; now rewrite nth_map_seq).
  destruct (map_res_seq (fun jj =>
    from <- argmin (col jj) ;; mn <- np_min (col jj) ;;
    match prev with
    | None => Ok (mn, in_tensor c (entries c) from jj)
    | Some pl => p <- np_get pl (Z.of_nat from) ;; Ok (mn + fst p, snd p ++ in_tensor c (entries c) from jj)
    end)
    (fun jj p => exists from, argmin (col jj) = Ok from /\ (from < 2 ^ M)%nat /\
       p = (hdistZ ch (out_tensor c (entries c) from jj) + fst (getp prev from), snd (getp prev from) ++ in_tensor c (entries c) from jj)) (seq 0 (2 ^ M))) as (p & E1 & E2 & E3).
  { intros jj Hj. destruct (argmin_ok (col jj)) as [from Ef].
    { intros X. assert (Y := Lcol jj). rewrite X in Y. assert (Z := pow2_pos M). simpl in Y. lia. }
    destruct (argmin_spec _ _ Ef) as (A & _). rewrite Lcol in A. rewrite Ef, (np_min_spec _ _ Ef). cbn [bind]. rewrite Ncol by auto. destruct prev as [pl|].
    - rewrite (np_get_nth pl from (0, [])) by lia. cbn [bind]. eexists. split; [reflexivity|]. exists from. auto.
    - eexists. split; [reflexivity|]. exists from. split; auto. split; auto. cbn [getp fst snd app]. f_equal. lia. }
  rewrite seq_length in E2, E3. exists p. split.
  { unfold viterbi_step. rewrite mem_total_cells. fold M. exact E1. }
  assert (G : forall j, (j < 2 ^ M)%nat -> exists from, (from < 2 ^ M)%nat /\ argmin (col j) = Ok from /\
     getp (Some p) j = (hdistZ ch (out_tensor c (entries c) from j) + fst (getp prev from), snd (getp prev from) ++ in_tensor c (entries c) from j)).
  { intros j Hj. destruct (E3 j 0%nat (0, []) Hj) as (from & F1 & F2 & F3). rewrite seq_nth in F1, F3 by auto. cbn [Nat.add] in F1, F3. exists from. auto. }
  assert (Hst : isstate c (state_after c s u t)) by (destruct Hs; split; [now apply state_after_length|now apply state_after_bits]).
  assert (Hst' : isstate c (state_after c s u (S t))) by (destruct Hs; split; [now apply state_after_length|now apply state_after_bits]).
  assert (Hin : isinput c (chunk_at c u t)) by (split; [apply chunk_at_length|now apply chunk_at_bits]).
  assert (St := step_fun_at c HS HT HV s u t Hs Bu). fold ch in St.
  split; [exact E2|]. split.
  - intros j Hj Ej. destruct (G j Hj) as (from & Hf & Ef & ->).
    destruct (st_of_inv _ Hst) as (jt & Hjt & Ejt).
    assert (Z0 : nth jt (col j) 0 = 0).
    { rewrite Ncol by auto. assert (X := out_true (state_after c s u t) (chunk_at c u t) jt j Hjt Hj Ejt Hin). rewrite St in X. cbn [fst snd] in X. apply X. auto. }
    destruct (argmin_spec _ _ Ef) as (_ & Mn & _). specialize (Mn jt). rewrite Lcol, Z0, Ncol in Mn by auto. specialize (Mn Hjt).
    assert (Nn := hdistZ_nonneg ch (out_tensor c (entries c) from j)).
    assert (Zf : hdistZ ch (out_tensor c (entries c) from j) = 0) by lia.
    destruct (out_zero ch from j Bch Lch Hf Hj Zf) as [Hi Es].
    assert (Efrom : st_of from = state_after c s u t).
    { apply (HD _ _ (in_tensor c (entries c) from j) (chunk_at c u t)); auto; [now apply st_of_state|]. rewrite Es, St, Ej. reflexivity. }
    assert (Ein : in_tensor c (entries c) from j = chunk_at c u t).
    { apply (HP (st_of from)); auto; [now apply st_of_state|]. rewrite Es. rewrite Efrom, St. cbn [snd]. auto. }
    rewrite Zf, (I1 from Hf Efrom), Ein. cbn [fst snd]. f_equal.
    rewrite chunk_at_block. apply (nth_ext_def 0).
    + rewrite app_length, block_length, !firstn_length. nia.
    + rewrite app_length, block_length, firstn_length. intros k Hk. rewrite nth_firstn by nia.
      destruct (lt_dec k (n * t)) as [Hlt|Hge].
      * rewrite app_nth1 by (rewrite firstn_length; nia). now rewrite nth_firstn.
      * rewrite app_nth2 by (rewrite firstn_length; nia). rewrite firstn_length. rewrite block_nth by nia. f_equal. nia.
  - intros j Hj. destruct (G j Hj) as (from & Hf & Ef & ->). cbn [fst snd]. destruct (I2 from Hf) as [P0 P1].
    assert (Nn := hdistZ_nonneg ch (out_tensor c (entries c) from j)). split; [lia|]. intros Z0.
    destruct P1 as (s0 & Hs0 & L0 & B0 & Es0 & Ec0); [lia|].
    destruct (out_zero ch from j Bch Lch Hf Hj ltac:(lia)) as [Hi Es].
    destruct (extend s0 (snd (getp prev from)) (in_tensor c (entries c) from j) t Hs0 L0 B0 Hi) as [X1 X2].
    rewrite Es0, Es in X1, X2. cbn [fst snd] in X1, X2.
    exists s0. split; auto. split; [rewrite app_length, L0; destruct Hi; lia|]. split; [apply bits_app; split; auto; apply Hi|]. split; auto.
    rewrite X1, Ec0. symmetry. apply conv_from_chunk. auto.
Qed.
Lemma viterbi_run_app es prev a b : viterbi_run c es prev (a ++ b) = (p <- viterbi_run c es prev a ;; viterbi_run c es p b).
Proof.
  revert prev. induction a as [|ch a IH]; intros prev; [reflexivity|]. cbn [app viterbi_run]. destruct (viterbi_step c es prev ch) as [p|]; [|reflexivity]. cbn [bind]. apply IH.
Qed.
Lemma inv_run s u T : isstate c s -> bits u -> length u = (n * conv_steps c u)%nat -> (T <= conv_steps c u)%nat ->
  exists p, viterbi_run c (entries c) None (map (fun t => map (conv_bit c (unpack c s) u t) (seq 0 N)) (seq 0 T)) = Ok p /\ inv s u T p.
Proof.
  intros Hs Bu Lu. induction T; intros HTT.
  - exists None. split; [reflexivity|]. split; [reflexivity|]. split.
    + intros j _ _. cbn [getp]. now rewrite Nat.mul_0_r.
    + intros j Hj. cbn [getp fst snd]. split; [lia|]. intros _. exists (st_of j). assert (X := st_of_state j Hj). split; auto. split; [simpl; lia|]. split; [constructor|].
      split; [apply state_after_0; apply X|]. cbn [Nat.mul firstn]. unfold conv_from. assert (E : conv_steps c [] = 0%nat).
      { assert (Hn := gen_pos c HS). unfold conv_steps. cbn [length Nat.add]. apply Nat.div_small. lia. }
      rewrite E. reflexivity.
  - destruct IHT as (p & E & I); [lia|]. destruct (inv_step s u T p Hs Bu Lu ltac:(lia) I) as (p' & E' & I').
    exists (Some p'). split; auto. rewrite seq_S, map_app, viterbi_run_app, E. cbn [bind map viterbi_run Nat.add]. rewrite E'. reflexivity.
Qed.
Definition determined (T : nat) : Prop := forall s s' u u', isstate c s -> isstate c s' -> length u = (n * T)%nat -> bits u -> length u' = (n * T)%nat -> bits u' ->
  conv_from c (unpack c s) u = conv_from c (unpack c s') u' -> u = u'.
Lemma viterbi_block_ok s u T : (0 < T)%nat -> isstate c s -> bits u -> length u = (n * T)%nat -> determined T ->
  exists last q, viterbi_block c (entries c) (conv_from c (unpack c s) u) = Ok (u, last, q) /\ (last < 2 ^ M)%nat /\
    (exists s0, isstate c s0 /\ conv_from c (unpack c s0) u = conv_from c (unpack c s) u /\ state_after c s0 u T = st_of last) /\
    exists ends, NoDup ends /\ (forall e, In e ends <-> ends_in c T u (conv_from c (unpack c s) u) e) /\ q = tie_prob (length ends).
Proof.
  intros HT0 Hs Bu Lu Det. assert (Hn := gen_pos c HS). assert (Ho := cs_out c HS).
  assert (Est : conv_steps c u = T) by (apply conv_steps_mult; auto; lia).
  destruct (inv_run s u T Hs Bu) as (p & E & I); [rewrite Est; auto|lia|].
  unfold viterbi_block. assert (Ech : chunks N (conv_from c (unpack c s) u) = map (fun t => map (conv_bit c (unpack c s) u t) (seq 0 N)) (seq 0 T)).
  { unfold conv_from. rewrite Est. apply chunks_of_concat; auto. apply Forall_forall. intros r Hr. apply in_map_iff in Hr. destruct Hr as (q & <- & _). now rewrite map_length, seq_length. }
  rewrite Ech, E. cbn [bind]. destruct I as (IL & I1 & I2). destruct p as [fin|]; [|lia].
  assert (Hst : isstate c (state_after c s u T)) by (destruct Hs; split; [now apply state_after_length|now apply state_after_bits]).
  destruct (st_of_inv _ Hst) as (jt & Hjt & Ejt). assert (P := pow2_pos M).
  destruct (argmin_ok (map fst fin)) as [last El]; [intros X; apply (f_equal (@length Z)) in X; rewrite map_length, IL in X; simpl in X; lia|].
  rewrite El. cbn [bind]. destruct (argmin_spec _ _ El) as (A & Mn & _). rewrite map_length, IL in A, Mn.
  rewrite (np_get_nth _ last []) by (rewrite map_length; lia). cbn [bind]. rewrite (np_min_spec _ _ El). cbn [bind].
  specialize (Mn jt Hjt). rewrite !(map_nth_lt _ _ _ (0, [])) in Mn by lia.
  assert (J := I1 jt Hjt Ejt). cbn [getp] in J. rewrite J in Mn. cbn [fst] in Mn.
  destruct (I2 last A) as [Q0 Q1]. cbn [getp] in Q0, Q1. destruct Q1 as (s0 & Hs0 & L0 & B0 & Es0 & Ec0); [lia|].
  rewrite (map_nth_lt _ _ _ (0, [])) by lia.
  assert (LF : length (conv_from c (unpack c s) u) = (T * N)%nat) by (rewrite conv_from_length, Est; auto).
  rewrite firstn_all2 in Ec0 by lia. assert (Eu : snd (nth last fin (0, [])) = u) by (apply (Det s0 s); auto).
  rewrite Eu in *. eexists last, _. split; [reflexivity|]. split; auto. split; [exists s0; auto|].
  set (zero := fun j => fst (nth j fin (0, [])) =? 0). exists (map st_of (filter zero (seq 0 (2 ^ M)))). split; [|split].
  - apply NoDup_map_inj_in; [|apply NoDup_filter, seq_NoDup]. intros i j Hi Hj. apply filter_In in Hi, Hj. destruct Hi as [Hi _], Hj as [Hj _]. apply in_seq in Hi, Hj. apply st_of_inj; lia.
  - intros e. rewrite in_map_iff. split.
    + intros (j & <- & Hj). apply filter_In in Hj. destruct Hj as [Hj Z0]. apply in_seq in Hj. unfold zero in Z0. apply Z.eqb_eq in Z0. destruct (I2 j ltac:(lia)) as [_ W]. cbn [getp] in W. destruct (W Z0) as (s1 & H1 & L1 & B1 & E1 & C1).
      rewrite firstn_all2 in C1 by lia. assert (Eu1 : snd (nth j fin (0, [])) = u) by (apply (Det s1 s); auto). rewrite Eu1 in *. exists s1. auto.
    + intros (s1 & H1 & C1 & E1). assert (Hst1 : isstate c (state_after c s1 u T)) by (destruct H1; split; [now apply state_after_length|now apply state_after_bits]). destruct (st_of_inv _ Hst1) as (j & Hj & Ej).
      exists j. split; [congruence|]. apply filter_In. split; [apply in_seq; lia|]. unfold zero. destruct (inv_run s1 u T H1 Bu) as (p1 & E1' & _ & I1' & _); [rewrite Est; auto|lia|].
      assert (Ech1 : chunks N (conv_from c (unpack c s1) u) = map (fun t => map (conv_bit c (unpack c s1) u t) (seq 0 N)) (seq 0 T)).
      { unfold conv_from. rewrite Est. apply chunks_of_concat; auto. apply Forall_forall. intros r Hr. apply in_map_iff in Hr. destruct Hr as (q & <- & _). now rewrite map_length, seq_length. }
      rewrite <- Ech1, C1, Ech, E in E1'. injection E1' as <-. specialize (I1' j Hj Ej). cbn [getp] in I1'. rewrite I1'. reflexivity.
  - rewrite map_length. assert (MN : nth last (map fst fin) 0 = 0) by (rewrite (map_nth_lt _ _ _ (0, [])) by lia; lia). rewrite MN. set (cnt := length (filter zero (seq 0 (2 ^ M)))).
    assert (CN : length (filter (Z.eqb 0) (map fst fin)) = cnt).
    { unfold cnt. rewrite <- IL. clear. rewrite filter_map_length. rewrite <- (map_nth_seq fin (0, [])) at 1. rewrite filter_map_length. reflexivity. }
    rewrite CN. assert (1 <= cnt)%nat.
    { assert (In jt (filter zero (seq 0 (2 ^ M)))) by (apply filter_In; split; [apply in_seq; lia|]; unfold zero; rewrite J; reflexivity). unfold cnt. destruct (filter zero (seq 0 (2 ^ M))); [contradiction|cbn; lia]. }
    unfold tie_prob. destruct (Nat.eqb_spec cnt 1) as [->|]; [reflexivity|]. destruct (Nat.ltb_spec 1 cnt); [reflexivity|lia].
Qed.
Lemma viterbi_stream x zi y T : (0 < T)%nat -> determined T -> bits x -> x <> [] -> coding_conv x c zi = Ok y -> (T * N <= length y)%nat ->
  exists d last p, decoding_conv_viterbi y c (T * N) = Ok (d, last, p) /\ length d = (length y / (T * N) * (n * T))%nat /\
    (forall i, (i < length d)%nat -> nth i d 0 = nth i x 0) /\
    (last < 2 ^ M)%nat /\
    let b := (length y / (T * N) - 1)%nat in
    (exists s0, isstate c s0 /\ conv_from c (unpack c s0) (block (n * T) b d) = block (T * N) b y /\ state_after c s0 (block (n * T) b d) T = st_of last) /\
    length p = (length y / (T * N))%nat /\ forall b, (b < length y / (T * N))%nat ->
      exists ends, NoDup ends /\ (forall e, In e ends <-> ends_in c T (block (n * T) b d) (block (T * N) b y) e) /\ nth b p 0%Q = tie_prob (length ends).
Proof.
  intros HT0 Det Bx Nx Ey Hlen. assert (Hn := gen_pos c HS). assert (Ho := cs_out c HS).
  assert (V := check_any [] x c HV Bx). rewrite coding_conv_eq in Ey by auto. injection Ey as Ey.
  assert (By : bits y) by (rewrite <- Ey; apply conv_from_bits). assert (Vy := check_any [] y c HV By).
  set (tb := (T * N)%nat) in *. assert (Htb : (0 < tb)%nat) by (unfold tb; nia). set (nb := (length y / tb)%nat).
  assert (Hnb : (0 < nb)%nat) by (apply Nat.div_str_pos; lia).
  set (K := (n * T)%nat) in *. assert (HK : (0 < K)%nat) by (unfold K; nia).
  assert (Ly : length y = (conv_steps c x * N)%nat) by (rewrite <- Ey; apply conv_from_length).
  set (z0 := repeat 0 (all_cells c)). assert (Hz : isstate c z0) by apply zero_isstate.
  assert (Hbl : forall b, (b < nb)%nat -> isstate c (state_after c z0 x (b * T)) /\ block tb b y = conv_from c (unpack c (state_after c z0 x (b * T))) (block K b x)).
  { intros b Hb. split; [destruct Hz; split; [now apply state_after_length|now apply state_after_bits]|].
    rewrite <- Ey, <- conv_from_zero_state by auto. apply conv_from_block; auto.
    assert (DL := div_mul_le (length y) tb b Htb Hb). rewrite Ly in DL. unfold tb in DL. nia. }
  unfold decoding_conv_viterbi. rewrite Vy. cbn [bind]. rewrite (gen_match c HS).
  replace (N =? 0)%nat with false by (symmetry; apply Nat.eqb_neq; lia). replace (tb =? 0)%nat with false by (symmetry; apply Nat.eqb_neq; lia).
  cbn [orb]. rewrite trellis_entries_ok by auto. cbn [bind]. rewrite trunc_reshape_ok by auto. cbn [bind].
  destruct (map_res_seq (viterbi_block c (entries c)) (fun blk r => forall b, (b < nb)%nat -> blk = block tb b y ->
      fst (fst r) = block K b x /\ (snd (fst r) < 2 ^ M)%nat /\ (exists s0, isstate c s0 /\ conv_from c (unpack c s0) (block K b x) = blk /\ state_after c s0 (block K b x) T = st_of (snd (fst r))) /\
      exists ends, NoDup ends /\ (forall e, In e ends <-> ends_in c T (block K b x) blk e) /\ snd r = tie_prob (length ends)) (chunks tb y))
      as (l & E1 & E2 & E3).
  { intros blk Hb. rewrite chunks_blocks in Hb by auto. fold nb in Hb. apply in_map_iff in Hb. destruct Hb as (b & <- & Hb). apply in_seq in Hb.
    destruct (Hbl b ltac:(lia)) as [Hsb Eb]. destruct (viterbi_block_ok (state_after c z0 x (b * T)) (block K b x) T) as (last & q & V1 & V2 & (s0 & V3 & V4 & V5) & ends & W1 & W2 & W3); auto.
    { apply block_bits; auto. } { apply block_length. }
    rewrite <- Eb in V1, V4, W2. eexists. split; [exact V1|]. cbn [fst snd]. intros b' Hb' Ebb.
    assert (Ew : block K b x = block K b' x).
    { destruct (Hbl b' Hb') as [Hsb' Eb']. apply (Det _ _ _ _ Hsb Hsb'); try (apply block_length); try (apply block_bits; auto). now rewrite <- Eb, <- Eb'. }
    rewrite <- Ew. split; auto. split; auto. split; [exists s0; split; auto|exists ends; auto]. }
  assert (Lc : length (chunks tb y) = nb) by apply chunks_count. rewrite Lc in *.
  assert (G : forall b, (b < nb)%nat -> fst (fst (nth b l ([], 0%nat, 0%Q))) = block K b x /\ (snd (fst (nth b l ([], 0%nat, 0%Q))) < 2 ^ M)%nat /\
     (exists s0, isstate c s0 /\ conv_from c (unpack c s0) (block K b x) = block tb b y /\ state_after c s0 (block K b x) T = st_of (snd (fst (nth b l ([], 0%nat, 0%Q))))) /\
     exists ends, NoDup ends /\ (forall e, In e ends <-> ends_in c T (block K b x) (block tb b y) e) /\ snd (nth b l ([], 0%nat, 0%Q)) = tie_prob (length ends)).
  { intros b Hb. assert (X := E3 b [] ([], 0%nat, 0%Q) Hb b Hb). rewrite chunk_block in X by auto. apply X. reflexivity. }
  rewrite E1. cbn [bind].
  assert (Erev : rev l = nth (nb - 1) l ([], 0%nat, 0%Q) :: tl (rev l)).
  { destruct (rev l) as [|r rl] eqn:R; [apply (f_equal (@length _)) in R; rewrite rev_length in R; simpl in R; lia|]. cbn [tl]. f_equal.
    apply (f_equal (fun l => nth 0 l ([], 0%nat, 0%Q))) in R. rewrite rev_nth in R by lia. cbn [nth] in R. rewrite <- R. f_equal. lia. }
  rewrite Erev. destruct (nth (nb - 1) l ([], 0%nat, 0%Q)) as [[dl last] ql] eqn:En.
  assert (FD : Forall (fun w => length w = K) (map (fun t => fst (fst t)) l)).
  { apply Forall_forall. intros w Hw. apply (In_nth _ _ []) in Hw. destruct Hw as (b & Hb & <-). rewrite map_length in Hb.
    rewrite (map_nth_lt _ _ _ ([], 0%nat, 0%Q)) by lia. destruct (G b ltac:(lia)) as (-> & _). apply block_length. }
  assert (Bd : forall b, (b < nb)%nat -> block K b (concat (map (fun t => fst (fst t)) l)) = block K b x).
  { intros b Hb. rewrite block_concat by (auto; rewrite map_length; lia). rewrite (map_nth_lt _ _ _ ([], 0%nat, 0%Q)) by lia. apply G. auto. }
  eexists _, last, _. split; [reflexivity|].
  assert (Ld : length (concat (map (fun t => fst (fst t)) l)) = (nb * K)%nat) by (rewrite (concat_length_const K) by auto; now rewrite map_length, E2).
  split; [exact Ld|]. split.
  - intros i Hi. rewrite Ld in Hi. set (b := (i / K)%nat). assert (D := Nat.div_mod i K ltac:(lia)). assert (Mi := Nat.mod_upper_bound i K ltac:(lia)). fold b in D.
    assert (Hb : (b < nb)%nat) by nia. assert (Q := f_equal (fun l => nth (i mod K) l 0) (Bd b Hb)). cbn beta in Q. rewrite !block_nth in Q by auto.
    replace (b * K + i mod K)%nat with i in Q by lia. exact Q.
  - destruct (G (nb - 1)%nat ltac:(lia)) as (_ & G2 & (s0 & G3 & G4 & G5) & _). rewrite En in G2, G5. cbn [fst snd] in G2, G5. split; auto.
    cbn zeta. split; [exists s0; rewrite Bd by lia; auto|]. split; [now rewrite map_length, E2|]. intros b Hb. rewrite Bd by exact Hb. destruct (G b Hb) as (_ & _ & _ & ends & W1 & W2 & W3). exists ends. split; auto. split; auto.
    rewrite (map_nth_lt _ _ _ ([], 0%nat, 0%Q)) by (rewrite E2; exact Hb). exact W3.
Qed.
End vit.
(** every input having a memory cell rules out parallel transitions *)
Lemma cells_no_parallel c : code_shape c -> trellis_shape c -> (forall i, (i < length (gen c))%nat -> (0 < cells c i)%nat) -> no_parallel c.
Proof.
  intros HS HT Hc s i1 i2 [Ls Bs] [L1 B1] [L2 B2] E. apply (nth_ext_def 0); [congruence|]. intros k Hk. rewrite L1 in Hk.
  apply (f_equal (fun st => unpack c st k)) in E. cbn [step_fun snd] in E. rewrite !unpack_state_after in E by auto.
  specialize (Hc k Hk). destruct (cells c k) as [|m]; [lia|]. cbn [reg_hist firstn] in E. injection E as E.
  unfold in_bit in E. cbn [Nat.mul Nat.add] in E. assert (X1 := bits_nth _ k B1). assert (X2 := bits_nth _ k B2).
  set (q := dotZ (fb_taps c k) (unpack c s k)) in *. destruct X1 as [Q1|Q1], X2 as [Q2|Q2]; rewrite Q1, Q2 in *; auto; lia.
Qed.
Lemma conv_from_one c s i : code_shape c -> isinput c i -> conv_from c (unpack c s) i = fst (step_fun c s i).
Proof.
  intros HS [L B]. assert (Hn := gen_pos c HS). unfold conv_from. rewrite (conv_steps_mult c i 1) by (auto; lia). cbn [seq map concat step_fun fst]. apply app_nil_r.
Qed.
Lemma viterbi_stream_spec : forall (c : conv_code) (T : nat) (x : list Z),
  code_shape c -> trellis_shape c -> check_valid_conv [] c = Ok tt -> (0 < T)%nat -> bits x -> x <> [] ->
  let tb := (T * n_out c)%nat in let K := (length (gen c) * T)%nat in
  (forall i, (i < length (gen c))%nat -> (0 < cells c i)%nat) ->
  (forall s s' i i', isstate c s -> isstate c s' -> isinput c i -> isinput c i' ->
     state_after c s i 1 = state_after c s' i' 1 -> conv_from c (unpack c s) i = conv_from c (unpack c s') i' -> s = s') ->
  (forall s s' u u', isstate c s -> isstate c s' -> length u = K -> bits u -> length u' = K -> bits u' ->
     conv_from c (unpack c s) u = conv_from c (unpack c s') u' -> u = u') ->
  exists y, coding_conv x c None = Ok y /\
   ((tb <= length y)%nat -> exists d last p, decoding_conv_viterbi y c tb = Ok (d, last, p) /\
     length d = (length y / tb * K)%nat /\ (forall i, (i < length d)%nat -> nth i d 0 = nth i x 0) /\
     let b := (length y / tb - 1)%nat in
     (exists s0, isstate c s0 /\ conv_from c (unpack c s0) (block K b d) = block tb b y /\
       val_msb (state_after c s0 (block K b d) T) = Z.of_nat last) /\
     length p = (length y / tb)%nat /\ forall b, (b < length y / tb)%nat ->
       exists ends, NoDup ends /\ (forall e, In e ends <-> ends_in c T (block K b d) (block tb b y) e) /\ nth b p 0%Q = tie_prob (length ends)).
Proof.
  intros c T x S TS V HT Bx Nx tb K Hc HD Det. exists (conv_from c zero_regs x).
  assert (E : coding_conv x c None = Ok (conv_from c zero_regs x)) by (apply coding_conv_eq; auto; now apply (check_any [])). split; auto. intros L.
  assert (HD' : distinct_in c).
  { intros s1 s2 i1 i2 H1 H2 H3 H4 Eq. apply (HD s1 s2 i1 i2); auto.
    - apply (f_equal snd) in Eq. exact Eq.
    - rewrite !conv_from_one by auto. now rewrite Eq. }
  destruct (viterbi_stream c S TS V HD' (cells_no_parallel c S TS Hc) x None _ T HT Det Bx Nx E L) as (d & last & p & E1 & E2 & E3 & E4 & (s0 & F1 & F2 & F3) & G1 & G2).
  exists d, last, p. split; auto. split; auto. split; auto. cbn zeta. split; [|split; [exact G1|exact G2]]. exists s0. split; auto. split; auto. unfold K, tb. rewrite F3. unfold st_of. now apply perm_val.
Qed.
Lemma viterbi_short : forall (c : conv_code) (tb : nat) (r : list Z),
  code_shape c -> trellis_shape c -> check_valid_conv [] c = Ok tt -> bits r -> (length r < tb)%nat ->
  decoding_conv_viterbi r c tb = Raise UnboundLocalError.
Proof.
  intros c tb r S TS V B L. unfold decoding_conv_viterbi. rewrite (check_any [] r c V B). cbn [bind]. rewrite (gen_match c S).
  replace (n_out c =? 0)%nat with false by (symmetry; apply Nat.eqb_neq; assert (X := cs_out c S); lia).
  replace (tb =? 0)%nat with false by (symmetry; apply Nat.eqb_neq; lia). cbn [orb]. rewrite trellis_entries_ok by auto. cbn [bind].
  rewrite trunc_reshape_ok by lia. cbn [bind]. rewrite chunks_blocks by lia. rewrite Nat.div_small by auto. reflexivity.
Qed.
