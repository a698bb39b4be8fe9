(** Proofs about the Viterbi decoder on a stream with errors. *)
From Verif Require Import Py B_list M_aux S_aux P_gf2 P_aux M_coding M_linear S_linear P_coding P_linear M_conv S_conv P_conv P_trellis M_convdec P_convdec P_viterbi S_viterbitot P_viterbitot S_viterbierr.
From Coq Require Import QArith.
Import List ListNotations.
Open Scope Z_scope.
Ltac Zify.zify_post_hook ::= Z.div_mod_to_equations.

Lemma hdist_app : forall u v x y, length u = length v -> hdist (u ++ x) (v ++ y) = (hdist u v + hdist x y)%nat.
Proof. induction u as [|a u IH]; intros [|b v] x y L; try discriminate L; [reflexivity|]. cbn [app]. rewrite !hdist_cons, IH by (injection L; auto). lia. Qed.
(** total distance, chunk by chunk *)
Fixpoint sumdist (os chs : list (list Z)) : nat :=
  match os, chs with o :: os', ch :: chs' => (hdist o ch + sumdist os' chs')%nat | _, _ => 0%nat end.
Lemma sumdist_concat : forall os chs, Forall2 (fun o ch => length o = length ch) os chs -> sumdist os chs = hdist (concat os) (concat chs).
Proof. induction 1 as [|o ch os chs H F IH]; [reflexivity|]. cbn [sumdist concat]. rewrite hdist_app by auto. now rewrite IH. Qed.
Lemma sumdist_refl : forall os, sumdist os os = 0%nat.
Proof. induction os; [reflexivity|]. cbn [sumdist]. rewrite hdist_refl. auto. Qed.

Section err.
Variable c : conv_code.
Hypothesis HS : code_shape c.
Hypothesis HT : trellis_shape c.
Hypothesis HV : check_valid_conv [] c = Ok tt.
Hypothesis HP : no_parallel c.
Notation n := (length (gen c)).
Notation N := (n_out c).
Let M := all_cells c.
Lemma st_val j : (j < 2 ^ M)%nat -> val_msb (st_of c j) = Z.of_nat j.
Proof. intros H. unfold st_of. now apply perm_val. Qed.
Lemma goes_out s u o e : goes c s u o e -> length o = N /\ bits o /\ isstate c e.
Proof.
  intros G. apply (goes_step c HS) in G. destruct G as (A & B & E). assert (SO := step_fun_out c s u). rewrite E in SO. cbn [fst] in SO. destruct SO as (SO1 & SO2).
  split; [exact SO1|]. split; [exact SO2|]. apply (f_equal snd) in E. cbn [step_fun snd] in E. subst e. destruct A, B. split; [now apply state_after_length|now apply state_after_bits].
Qed.
Lemma goes_fun s u o e u' o' : goes c s u o e -> goes c s u' o' e -> u = u' /\ o = o'.
Proof.
  intros G G'. apply (goes_step c HS) in G, G'. destruct G as (A & B & E), G' as (A' & B' & E'). assert (u = u') by (apply (HP s); auto; rewrite E, E'; reflexivity). subst u'. split; [reflexivity|]. congruence.
Qed.
Lemma preferred_unique ch e s u o s' u' o' : preferred c ch e s u o -> preferred c ch e s' u' o' -> s = s' /\ u = u' /\ o = o'.
Proof.
  intros (G & H) (G' & H'). destruct (list_eq_dec Z.eq_dec s s') as [->|D].
  - split; [reflexivity|]. eapply goes_fun; eauto.
  - exfalso. specialize (H _ _ _ G' (fun x => D (eq_sym x))). specialize (H' _ _ _ G D). lia.
Qed.
Lemma snoc_inv {A} (l l' : list A) a a' : l ++ [a] = l' ++ [a'] -> l = l' /\ a = a'.
Proof. apply app_inj_tail. Qed.
Lemma traced_state s0 chs e w D : traced c s0 chs e w D -> isstate c s0 /\ isstate c e.
Proof. induction 1 as [H|chs s w D ch e u o H IH (G & _)]; [auto|]. split; [apply IH|]. eapply goes_out; eauto. Qed.
Lemma traced_unique : forall s0 chs e w D, traced c s0 chs e w D -> forall s0' w' D', traced c s0' chs e w' D' -> s0 = s0' /\ w = w' /\ D = D'.
Proof.
  induction 1 as [H|chs s w D ch e u o H IH Pr]; intros s0' w' D' T'.
  - inversion T' as [A B C E F|? ? ? ? ? ? ? ? ? ? X]; subst; [auto|]. destruct chs; discriminate.
  - inversion T' as [A B C E F|chs1 s1 w1 D1 ch1 e1 u1 o1 T1 P1 X]; subst; [destruct chs; discriminate|]. apply snoc_inv in X. destruct X as (-> & ->).
    destruct (preferred_unique _ _ _ _ _ _ _ _ Pr P1) as (-> & -> & ->). destruct (IH _ _ _ T1) as (-> & -> & ->). auto.
Qed.
(** what a traced path is *)
Lemma traced_facts s0 chs e w D : traced c s0 chs e w D ->
  length w = (n * length chs)%nat /\ bits w /\ state_after c s0 w (length chs) = e /\
  (Forall (fun ch => length ch = N) chs -> hdist (conv_from c (unpack c s0) w) (concat chs) = D) /\ length (conv_from c (unpack c s0) w) = (length chs * N)%nat.
Proof.
  induction 1 as [H|chs s w D ch e u o H (I1 & I2 & I3 & I4 & I5) (G & Pr)].
  - cbn [length]. assert (E : conv_from c (unpack c s0) [] = []) by (unfold conv_from; replace (conv_steps c []) with 0%nat; [reflexivity|]; assert (Hn := gen_pos c HS); unfold conv_steps; cbn [length Nat.add]; symmetry; apply Nat.div_small; lia).
    rewrite E. split; [lia|]. split; [constructor|]. split; [apply state_after_0; apply H|]. split; [reflexivity|reflexivity].
  - destruct (traced_state _ _ _ _ _ H) as (H0 & H1). assert (G' := G). apply (goes_step c HS) in G'. destruct G' as (_ & Iu & E). destruct (goes_out _ _ _ _ G) as (Lo & _ & _).
    destruct (extend c HS HT HV s0 w u (length chs) H0 I1 I2 Iu) as (X1 & X2). rewrite I3, E in X1, X2. cbn [fst snd] in X1, X2.
    rewrite (app_length chs [ch]). cbn [length]. rewrite Nat.add_1_r. split; [rewrite app_length, I1; destruct Iu; lia|]. split; [apply bits_app; split; [exact I2|apply Iu]|]. split; [exact X2|].
    split; [|rewrite X1, app_length, I5, Lo; lia]. intros F. apply Forall_app in F. destruct F as (F & Fc). inversion Fc as [|? ? Lc _]; subst. rewrite X1, concat_app. cbn [concat]. rewrite app_nil_r.
    rewrite hdist_app by (rewrite I5; symmetry; rewrite (concat_length_const N) by auto; reflexivity). now rewrite (I4 F).
Qed.

(** the decoder's choice *)
Section dec.
Hypothesis SC : safe_code c.
Lemma col_pref ch j from : bits ch -> length ch = N -> (j < 2 ^ M)%nat ->
  argmin (map (fun ii => hdistZ ch (out_tensor c (entries c) ii j)) (seq 0 (2 ^ M))) = Ok from ->
  (from < 2 ^ M)%nat /\ preferred c ch (st_of c j) (st_of c from) (in_tensor c (entries c) from j) (out_tensor c (entries c) from j) /\
  nth from (map (fun ii => hdistZ ch (out_tensor c (entries c) ii j)) (seq 0 (2 ^ M))) 0 = Z.of_nat (hdist (out_tensor c (entries c) from j) ch).
Proof.
  intros B L Hj E. assert (Bi := col_safe c HS ch j from SC B L Hj E). destruct (argmin_spec _ _ E) as (A & Mn & Lt). rewrite map_length, seq_length in A, Mn. split; [exact A|].
  assert (Ex : exists u o, goes c (st_of c from) u o (st_of c j)).
  { unfold in_tensor in Bi. rewrite !(st_of_uint c) in Bi by auto. destruct (io_get (entries c) (st_of c from) (st_of c j)) as [[u o]|] eqn:F.
    - exists u, o. apply (goes_step c HS). destruct (io_get_some c _ _ _ _ F) as (F1 & F2 & F3). auto.
    - exfalso. assert (Hn := gen_pos c HS). destruct (length (gen c)) as [|k]; [lia|]. cbn [repeat] in Bi. inversion Bi as [|? ? Hb _]; subst. destruct Hb; discriminate. }
  assert (G := there c HS from j A Hj Ex). assert (Z : forall i, (i < 2 ^ M)%nat -> (exists u o, goes c (st_of c i) u o (st_of c j)) -> hdistZ ch (out_tensor c (entries c) i j) = Z.of_nat (hdist (out_tensor c (entries c) i j) ch)).
  { intros i Hi Exi. assert (Gi := there c HS i j Hi Hj Exi). destruct (goes_out _ _ _ _ Gi) as (Lo & Bo & _). rewrite hdistZ_hdist by (auto; congruence). f_equal. apply hdist_sym; auto. congruence. }
  split; [|rewrite nth_map_seq by auto; cbn [Nat.add]; now apply Z]. split; [exact G|]. intros s' u' o' G' Ns. destruct (st_of_inv c s') as (i & Hi & Ei); [apply G'|]. subst s'.
  assert (Exi : exists u o, goes c (st_of c i) u o (st_of c j)) by eauto. assert (Gi := there c HS i j Hi Hj Exi). destruct (goes_fun _ _ _ _ _ _ G' Gi) as (-> & ->).
  rewrite !st_val by auto. assert (M1 := Mn i Hi). assert (M2 := Lt i). rewrite !nth_map_seq in M1, M2 by auto. cbn [Nat.add] in M1, M2. rewrite (Z i Hi Exi), (Z from A Ex) in M1, M2.
  assert (i <> from) by congruence. lia.
Qed.
Definition tinv (chs : list (list Z)) (prev : option (list (Z * list Z))) : Prop :=
  match prev with
  | None => chs = []
  | Some pl => length pl = (2 ^ M)%nat /\ forall j, (j < 2 ^ M)%nat -> exists s0 D, traced c s0 chs (st_of c j) (snd (nth j pl (0, []))) D /\ fst (nth j pl (0, [])) = Z.of_nat D
  end.
Lemma tstep chs prev ch : bits ch -> length ch = N -> tinv chs prev -> exists p, viterbi_step c (entries c) prev ch = Ok p /\ tinv (chs ++ [ch]) (Some p).
Proof.
  intros B L I. unfold viterbi_step. rewrite mem_total_cells. fold M.
  destruct (map_res_seq (fun jj =>
    let col := map (fun ii => hdistZ ch (out_tensor c (entries c) ii jj)) (seq 0 (2 ^ M)) in
    from <- argmin col ;; mn <- np_min col ;;
    match prev with
    | None => Ok (mn, in_tensor c (entries c) from jj)
    | Some pl => p <- np_get pl (Z.of_nat from) ;; Ok (mn + fst p, snd p ++ in_tensor c (entries c) from jj)
    end)
    (fun j q => exists s0 D, traced c s0 (chs ++ [ch]) (st_of c j) (snd q) D /\ fst q = Z.of_nat D) (seq 0 (2 ^ M))) as (p & E1 & E2 & E3).
  { intros j Hj. apply in_seq in Hj. cbv zeta. set (col := map _ (seq 0 (2 ^ M))).
    destruct (argmin_ok col) as [from Ef]. { intros X. apply (f_equal (@length _)) in X. unfold col in X. rewrite map_length, seq_length in X. pose proof (pow2_pos M). cbn in X. lia. }
    destruct (col_pref ch j from B L ltac:(lia) Ef) as (A & Pr & Nf). rewrite Ef, (np_min_spec _ _ Ef). cbn [bind]. unfold col. rewrite Nf.
    destruct prev as [pl|].
    - destruct I as (Lp & Ip). rewrite (np_get_nth pl from (0, [])) by lia. cbn [bind]. eexists. split; [reflexivity|]. cbn [fst snd]. destruct (Ip from A) as (s0 & D & T & ED). exists s0, (D + hdist (out_tensor c (entries c) from j) ch)%nat. split; [|rewrite ED; lia]. now apply (traced_snoc c s0 chs (st_of c from)).
    - cbn [tinv] in I. subst chs. eexists. split; [reflexivity|]. cbn [fst snd]. exists (st_of c from), (0 + hdist (out_tensor c (entries c) from j) ch)%nat. split; [|lia].
      apply (traced_snoc c (st_of c from) [] (st_of c from) [] 0); [|exact Pr]. constructor. now apply st_of_state. }
  rewrite seq_length in E2, E3. exists p. split; [exact E1|]. split; [exact E2|]. intros j Hj. specialize (E3 j 0%nat (0, []) Hj). rewrite seq_nth in E3 by auto. exact E3.
Qed.
Lemma trun : forall chs chs0 prev, Forall (fun ch => bits ch /\ length ch = N) chs -> tinv chs0 prev -> exists p, viterbi_run c (entries c) prev chs = Ok p /\ tinv (chs0 ++ chs) p.
Proof.
  induction chs as [|ch chs IH]; intros chs0 prev F I; cbn [viterbi_run].
  - exists prev. split; [reflexivity|]. now rewrite app_nil_r.
  - inversion F as [|? ? (B & L) F']; subst. destruct (tstep chs0 prev ch B L I) as (p & E & Ip). rewrite E. cbn [bind]. destruct (IH (chs0 ++ [ch]) (Some p) F' Ip) as (q & Eq & Iq). exists q. split; [exact Eq|]. now rewrite <- app_assoc in Iq.
Qed.
Definition tied (chs : list (list Z)) (D : nat) (ends : list (list Z)) : Prop :=
  NoDup ends /\ forall e, In e ends <-> exists s0 w, traced c s0 chs e w D.
Lemma tblock blk : bits blk -> (N <= length blk)%nat -> exists d last q s0 e D ends, viterbi_block c (entries c) blk = Ok (d, last, q) /\
  best_traced c (chunks N blk) s0 e d D /\ val_msb e = Z.of_nat last /\ tied (chunks N blk) D ends /\ q = tie_prob (length ends).
Proof.
  intros B L. assert (Ho := cs_out c HS). assert (FC : Forall (fun ch => bits ch /\ length ch = N) (chunks N blk)).
  { apply Forall_forall. intros ch Hch. split; [|assert (R := chunks_rows N blk ltac:(lia)); rewrite Forall_forall in R; auto]. rewrite chunks_blocks in Hch by lia. apply in_map_iff in Hch. destruct Hch as (b & <- & _). now apply block_bits. }
  destruct (trun (chunks N blk) [] None FC) as (p & E & I); [reflexivity|]. cbn [app] in I.
  assert (D : (1 <= length blk / N)%nat) by (apply Nat.div_str_pos; lia).
  unfold viterbi_block. rewrite E. cbn [bind]. destruct p as [fin|]; [|cbn [tinv] in I; apply (f_equal (@length _)) in I; rewrite chunks_count in I; cbn in I; lia].
  destruct I as (Lf & If). assert (P := pow2_pos M).
  destruct (argmin_ok (map fst fin)) as [last El]; [intros X; apply (f_equal (@length _)) in X; rewrite map_length, Lf in X; cbn in X; lia|].
  rewrite El. cbn [bind]. destruct (argmin_spec _ _ El) as (A & Mn & Lt). rewrite map_length, Lf in A, Mn.
  rewrite (np_get_nth _ last []) by (rewrite map_length; lia). cbn [bind]. rewrite (np_min_spec _ _ El). cbn [bind]. rewrite !(map_nth_lt _ _ _ (0, [])) by lia.
  destruct (If last A) as (s0 & D0 & T0 & F0). rewrite F0. set (zero := fun j => Z.of_nat D0 =? fst (nth j fin (0, []))).
  eexists _, last, _, s0, (st_of c last), D0, (map (st_of c) (filter zero (seq 0 (2 ^ M)))). split; [reflexivity|]. split; [split; [exact T0|]|].
  { intros s0' e' w' D' T' Ne. destruct (st_of_inv c e') as (j & Hj & Ej); [eapply traced_state; eauto|]. fold M in Hj. subst e'. destruct (If j Hj) as (s1 & D1 & T1 & F1). destruct (traced_unique _ _ _ _ _ T' _ _ _ T1) as (-> & -> & ->).
    rewrite !st_val by auto. assert (M1 := Mn j Hj). assert (M2 := Lt j). rewrite !(map_nth_lt _ _ _ (0, [])) in M1 by lia. rewrite F0, F1 in M1. assert (j <> last) by congruence.
    destruct (lt_dec j last) as [Hl|Hl]; [|lia]. specialize (M2 Hl). rewrite !(map_nth_lt _ _ _ (0, [])) in M2 by lia. rewrite F0, F1 in M2. lia. }
  split; [now apply st_val|]. split; [split|].
  - apply NoDup_map_inj_in; [|apply NoDup_filter, seq_NoDup]. intros i j Hi Hj. apply filter_In in Hi, Hj. destruct Hi as [Hi _], Hj as [Hj _]. apply in_seq in Hi, Hj. apply st_of_inj; unfold M in *; lia.
  - intros e. rewrite in_map_iff. split.
    + intros (j & <- & Hj). apply filter_In in Hj. destruct Hj as [Hj Z0]. apply in_seq in Hj. unfold zero in Z0. apply Z.eqb_eq in Z0. destruct (If j ltac:(lia)) as (s1 & D1 & T1 & F1). assert (D1 = D0) by lia. subst D1. eauto.
    + intros (s1 & w1 & T1). destruct (st_of_inv c e) as (j & Hj & Ej); [eapply traced_state; eauto|]. fold M in Hj. subst e. exists j. split; [reflexivity|]. apply filter_In. split; [apply in_seq; lia|]. destruct (If j Hj) as (s2 & D2 & T2 & F2). destruct (traced_unique _ _ _ _ _ T1 _ _ _ T2) as (_ & _ & <-). unfold zero. rewrite F2. apply Z.eqb_refl.
  - rewrite map_length. set (cnt := length (filter zero (seq 0 (2 ^ M)))).
    assert (CN : length (filter (Z.eqb (Z.of_nat D0)) (map fst fin)) = cnt).
    { unfold cnt. rewrite <- Lf. clear. rewrite filter_map_length. rewrite <- (map_nth_seq fin (0, [])) at 1. rewrite filter_map_length. reflexivity. }
    rewrite CN. assert (1 <= cnt)%nat.
    { assert (In last (filter zero (seq 0 (2 ^ M)))) by (apply filter_In; split; [apply in_seq; lia|]; unfold zero; rewrite F0; apply Z.eqb_refl). unfold cnt. destruct (filter zero (seq 0 (2 ^ M))); [contradiction|cbn; lia]. }
    unfold tie_prob. destruct (Nat.eqb_spec cnt 1) as [->|]; [reflexivity|]. destruct (Nat.ltb_spec 1 cnt); [reflexivity|lia].
Qed.
(** every end state has its path *)
Lemma traced_total chs e : Forall (fun ch => bits ch /\ length ch = N) chs -> isstate c e -> exists s0 w D, traced c s0 chs e w D.
Proof.
  intros F He. destruct (trun chs [] None F) as (p & E & I); [reflexivity|]. cbn [app] in I. destruct (st_of_inv c e He) as (j & Hj & <-). destruct p as [fin|].
  - destruct I as (_ & I). destruct (I j Hj) as (s0 & D & T & _). eauto.
  - cbn [tinv] in I. subst chs. exists (st_of c j), [], 0%nat. now constructor.
Qed.
Lemma tstream r tb : bits r -> (N <= tb)%nat -> (tb <= length r)%nat ->
  exists d last p, decoding_conv_viterbi r c tb = Ok (d, last, p) /\ length d = (length r / tb * (n * (tb / N)))%nat /\ length p = (length r / tb)%nat /\
    forall b, (b < length r / tb)%nat -> exists s0 e D ends, best_traced c (chunks N (block tb b r)) s0 e (block (n * (tb / N)) b d) D /\
      (b = (length r / tb - 1)%nat -> val_msb e = Z.of_nat last) /\ tied (chunks N (block tb b r)) D ends /\ nth b p 0%Q = tie_prob (length ends).
Proof.
  intros B HN L. assert (Ho := cs_out c HS). assert (Hn := gen_pos c HS). unfold decoding_conv_viterbi. rewrite (check_any [] r c HV B). cbn [bind]. rewrite (gen_match c HS).
  replace (N =? 0)%nat with false by (symmetry; apply Nat.eqb_neq; lia). replace (tb =? 0)%nat with false by (symmetry; apply Nat.eqb_neq; lia).
  cbn [orb]. rewrite trellis_entries_ok by auto. cbn [bind]. rewrite trunc_reshape_ok by lia. cbn [bind]. set (nb := (length r / tb)%nat). set (K := (n * (tb / N))%nat).
  destruct (map_res_seq (viterbi_block c (entries c)) (fun blk t => exists s0 e D ends, best_traced c (chunks N blk) s0 e (fst (fst t)) D /\ val_msb e = Z.of_nat (snd (fst t)) /\ tied (chunks N blk) D ends /\ snd t = tie_prob (length ends)) (chunks tb r)) as (l & E1 & E2 & E3).
  { intros blk Hb. assert (Lb : length blk = tb) by (assert (R := chunks_rows tb r ltac:(lia)); rewrite Forall_forall in R; auto).
    assert (Bb : bits blk) by (rewrite chunks_blocks in Hb by lia; apply in_map_iff in Hb; destruct Hb as (b & <- & _); now apply block_bits).
    destruct (tblock blk Bb ltac:(lia)) as (d & last & q & s0 & e & D & ends & E & H). exists (d, last, q). split; [exact E|]. exists s0, e, D, ends. exact H. }
  rewrite chunks_count in E2, E3. fold nb in E2, E3. assert (Hnb : (1 <= nb)%nat) by (apply Nat.div_str_pos; lia). assert (HK : (1 <= tb / N)%nat) by (apply Nat.div_str_pos; lia).
  assert (G : forall b, (b < nb)%nat -> exists s0 e D ends, best_traced c (chunks N (block tb b r)) s0 e (fst (fst (nth b l ([], 0%nat, 0%Q)))) D /\ val_msb e = Z.of_nat (snd (fst (nth b l ([], 0%nat, 0%Q)))) /\ tied (chunks N (block tb b r)) D ends /\ snd (nth b l ([], 0%nat, 0%Q)) = tie_prob (length ends)).
  { intros b Hb. assert (X := E3 b [] ([], 0%nat, 0%Q) Hb). rewrite chunk_block in X by (auto; lia). exact X. }
  assert (FD : Forall (fun w => length w = K) (map (fun t => fst (fst t)) l)).
  { apply Forall_forall. intros w Hw. apply (In_nth _ _ []) in Hw. destruct Hw as (b & Hb & <-). rewrite map_length in Hb. rewrite (map_nth_lt _ _ _ ([], 0%nat, 0%Q)) by lia.
    destruct (G b ltac:(lia)) as (s0 & e & D & _ & (T & _) & _). destruct (traced_facts _ _ _ _ _ T) as (-> & _). rewrite chunks_count, block_length. reflexivity. }
  rewrite E1. cbn [bind].
  assert (Erev : rev l = nth (nb - 1) l ([], 0%nat, 0%Q) :: tl (rev l)).
  { destruct (rev l) as [|x rl] eqn:R; [apply (f_equal (@length _)) in R; rewrite rev_length in R; simpl in R; lia|]. cbn [tl]. f_equal.
    apply (f_equal (fun l => nth 0 l ([], 0%nat, 0%Q))) in R. rewrite rev_nth in R by lia. cbn [nth] in R. rewrite <- R. f_equal. lia. }
  rewrite Erev. destruct (nth (nb - 1) l ([], 0%nat, 0%Q)) as [[dl last] ql] eqn:En.
  eexists _, last, _. split; [reflexivity|]. split; [rewrite (concat_length_const K) by auto; now rewrite map_length, E2|]. split; [now rewrite map_length|].
  intros b Hb. destruct (G b Hb) as (s0 & e & D & ends & H1 & H2 & H3 & H4). exists s0, e, D, ends. rewrite block_concat by (auto; rewrite ?map_length; unfold K; nia). rewrite (map_nth_lt _ _ _ ([], 0%nat, 0%Q)) by lia. split; [exact H1|].
  split; [intros ->; rewrite En in H2; exact H2|]. split; [exact H3|]. rewrite (map_nth_lt _ _ _ ([], 0%nat, 0%Q)) by lia. exact H4.
Qed.
End dec.
(** * Paths as lists of transitions *)
Inductive walk : list Z -> list (list Z) -> list (list Z) -> list Z -> Prop :=
| walk_nil : forall s, isstate c s -> walk s [] [] s
| walk_cons : forall s u o s1 us os e, goes c s u o s1 -> walk s1 us os e -> walk s (u :: us) (o :: os) e.
Inductive gwalk : list Z -> list (list Z) -> list (list Z) -> list (list Z) -> list Z -> Prop :=
| gwalk_nil : forall s, isstate c s -> gwalk s [] [] [] s
| gwalk_cons : forall s ch u o s1 chs us os e, preferred c ch s1 s u o -> gwalk s1 chs us os e -> gwalk s (ch :: chs) (u :: us) (o :: os) e.
Lemma gwalk_snoc s chs us os e ch u o e' : gwalk s chs us os e -> preferred c ch e' e u o -> gwalk s (chs ++ [ch]) (us ++ [u]) (os ++ [o]) e'.
Proof.
  induction 1 as [s H|s ch1 u1 o1 s1 chs us os e H1 H2 IH]; intros Pr; cbn [app].
  - apply (gwalk_cons s ch u o e'); [exact Pr|]. constructor. destruct Pr as (G & _). apply goes_out in G. apply G.
  - apply (gwalk_cons s ch1 u1 o1 s1); auto.
Qed.
Lemma sumdist_snoc : forall os chs o ch, length os = length chs -> sumdist (os ++ [o]) (chs ++ [ch]) = (sumdist os chs + hdist o ch)%nat.
Proof. induction os as [|a os IH]; intros [|b chs] o ch L; try discriminate L; cbn [app sumdist]; [lia|]. injection L as L. rewrite IH by auto. lia. Qed.
Lemma gwalk_length s chs us os e : gwalk s chs us os e -> length os = length chs.
Proof. induction 1; cbn [length]; auto. Qed.
(** a traced path, cut anywhere *)
Lemma traced_split : forall B A s0 e w D, traced c s0 (A ++ B) e w D ->
  exists s w1 D1 us os, traced c s0 A s w1 D1 /\ gwalk s B us os e /\ w = w1 ++ concat us /\ D = (D1 + sumdist os B)%nat.
Proof.
  induction B as [|ch B IH] using rev_ind; intros A s0 e w D T.
  - rewrite app_nil_r in T. exists e, w, D, [], []. split; [exact T|]. split; [constructor; eapply traced_state; eauto|]. cbn [concat sumdist]. rewrite app_nil_r. split; [reflexivity|lia].
  - rewrite app_assoc in T. inversion T as [X1 X2|chs s w1 D1 ch1 e1 u o T1 P1 X]; subst; [destruct (A ++ B); discriminate|]. apply snoc_inv in X. destruct X as (-> & ->).
    destruct (IH _ _ _ _ _ T1) as (s2 & w2 & D2 & us & os & I1 & I2 & -> & ->). exists s2, w2, D2, (us ++ [u]), (os ++ [o]). split; [exact I1|]. split; [eapply gwalk_snoc; eauto|].
    rewrite concat_app. cbn [concat]. rewrite app_nil_r, app_assoc. split; [reflexivity|]. rewrite sumdist_snoc by (eapply gwalk_length; eauto). lia.
Qed.
(** transitions closer than half the merge distance are preferred *)
Lemma near_preferred d ch s u o e : merge_distance c d -> goes c s u o e -> bits ch -> length ch = N -> (2 * hdist o ch < d)%nat -> preferred c ch e s u o.
Proof.
  intros MD G B L H. split; [exact G|]. intros s' u' o' G' Ns. left. assert (X := MD _ _ _ _ _ _ _ G G' (fun x => Ns (eq_sym x))). destruct (goes_out _ _ _ _ G) as (Lo & Bo & _), (goes_out _ _ _ _ G') as (Lo' & Bo' & _).
  assert (Tr := hdist_tri o ch o' Bo B Bo' ltac:(congruence) ltac:(congruence)). rewrite (hdist_sym ch o') in Tr by (auto; congruence). lia.
Qed.
Definition close (d : nat) (o ch : list Z) : Prop := bits ch /\ length ch = N /\ (2 * hdist o ch < d)%nat.
Lemma survives d : merge_distance c d -> forall s us os e, walk s us os e -> forall chs s0 chs0 w0 D0, Forall2 (close d) os chs -> traced c s0 chs0 s w0 D0 ->
  traced c s0 (chs0 ++ chs) e (w0 ++ concat us) (D0 + sumdist os chs).
Proof.
  intros MD. induction 1 as [s H|s u o s1 us os e G W IH]; intros chs s0 chs0 w0 D0 F T.
  - inversion F; subst. cbn [concat sumdist]. rewrite !app_nil_r, Nat.add_0_r. exact T.
  - inversion F as [|? ch ? chs' (B & L & C) F']; subst. cbn [concat sumdist]. assert (Pr := near_preferred d ch s u o s1 MD G B L C).
    assert (T1 := traced_snoc c s0 chs0 s w0 D0 ch s1 u o T Pr). specialize (IH chs' s0 _ _ _ F' T1). rewrite <- !app_assoc in IH. cbn [app] in IH. now rewrite Nat.add_assoc.
Qed.
Lemma walk_out s us os e : walk s us os e -> Forall (fun o => bits o /\ length o = N) os /\ isstate c s /\ isstate c e.
Proof.
  induction 1 as [s H|s u o s1 us os e G W (IH & I1 & I2)]; [auto|]. destruct (goes_out _ _ _ _ G) as (Lo & Bo & _). split; [constructor; auto|]. split; [apply G|exact I2].
Qed.
(** paths from the same state to different states have different outputs *)
Lemma same_outputs : outputs_decide c -> forall s us os e, walk s us os e -> forall us' e', gwalk s os us' os e' -> e = e'.
Proof.
  intros OD. induction 1 as [s H|s u o s1 us os e G W IH]; intros us' e' GW.
  - inversion GW; subst. reflexivity.
  - inversion GW as [|? ? u1 ? s2 ? us2 ? ? P1 W1]; subst. destruct P1 as (G1 & _). assert (s1 = s2) by (eapply OD; eauto). subst s2. eapply IH; eauto.
Qed.
Lemma sumdist_zero : forall os B, Forall (fun o => length o = N) os -> Forall (fun o => length o = N) B -> length os = length B -> sumdist os B = 0%nat -> os = B.
Proof.
  induction os as [|o os IH]; intros [|b B] F1 F2 L E; try discriminate L; [reflexivity|]. inversion F1; inversion F2; subst. cbn [sumdist] in E. injection L as L. f_equal; [apply hdist_zero; [congruence|lia]|apply IH; auto; lia].
Qed.
Lemma gwalk_out s chs us os e : gwalk s chs us os e -> Forall (fun o => length o = N) os.
Proof. induction 1 as [s H|s ch u o s1 chs us os e (G & _) W IH]; constructor; auto. apply goes_out in G. apply G. Qed.
(** over an error-free tail another path has met the right one and lost there, or was apart all the time *)
Lemma tail_race d : merge_distance c d -> (0 < d)%nat -> outputs_decide c -> forall q us B e, walk q us B e -> forall s s' A p w1 D1 w E1 us' os' e', traced c s A q w E1 -> traced c s' A p w1 D1 -> gwalk p B us' os' e' -> e' <> e ->
  (E1 < D1 + sumdist os' B)%nat \/ apart c p os' q B.
Proof.
  intros MD Hd OD. induction 1 as [q H|q u b q1 us B e G W IH]; intros s s' A p w1 D1 w E1 us' os' e' Tq Tp GW Ne.
  - inversion GW; subst. right. constructor; auto.
  - destruct (list_eq_dec Z.eq_dec p q) as [->|Npq].
    + left. destruct (traced_unique _ _ _ _ _ Tp _ _ _ Tq) as (-> & -> & ->). destruct (Nat.eq_dec (sumdist os' (b :: B)) 0) as [Z0|]; [|lia]. exfalso.
      assert (Ob : Forall (fun o => length o = N) (b :: B)). { destruct (walk_out _ _ _ _ (walk_cons _ _ _ _ _ _ _ G W)) as (F & _). eapply Forall_impl; [|exact F]. intros o (_ & Lo). exact Lo. }
      assert (E := sumdist_zero os' (b :: B) (gwalk_out _ _ _ _ _ GW) Ob (gwalk_length _ _ _ _ _ GW) Z0). subst os'. apply Ne. symmetry. eapply same_outputs; [exact OD|exact (walk_cons _ _ _ _ _ _ _ G W)|exact GW].
    + inversion GW as [|? ? u1 o1 p1 ? us1 os1 ? P1 W1]; subst. assert (Tp1 := traced_snoc c s' A p w1 D1 b p1 u1 o1 Tp P1).
      destruct (goes_out _ _ _ _ G) as (Lb & Bb & _). assert (Pq : preferred c b q1 q u b) by (apply (near_preferred d); auto; rewrite hdist_refl; lia).
      assert (Tq1 := traced_snoc c s A q w E1 b q1 u b Tq Pq). rewrite hdist_refl, Nat.add_0_r in Tq1. cbn [sumdist].
      destruct (IH _ _ _ _ _ _ _ _ _ _ _ Tq1 Tp1 W1 Ne) as [I|I]; [left; lia|]. right. apply (apart_cons c p u1 o1 p1 os1 q u b q1 B); auto. apply P1.
Qed.
(** the block is decoded right *)
Lemma block_right d E L s us os e chs : merge_distance c d -> (0 < d)%nat -> outputs_decide c -> spread c L (S E) -> walk s us os e -> Forall2 (close d) os chs -> (L <= length os)%nat ->
  skipn (length os - L) chs = skipn (length os - L) os -> (sumdist os chs <= E)%nat ->
  traced c s chs e (concat us) (sumdist os chs) /\ forall s' e' w' D', traced c s' chs e' w' D' -> e' <> e -> (sumdist os chs < D')%nat.
Proof.
  intros MD Hd OD SP W F HL Tail HE. assert (Lc : length chs = length os) by (symmetry; clear -F; induction F; cbn [length]; auto). destruct (walk_out _ _ _ _ W) as (FO & Hs & He).
  split; [apply (survives d MD s us os e W chs s [] [] 0 F); now constructor|]. intros s' e' w' D' T Ne. set (k := (length os - L)%nat) in *.
  assert (Cut : exists q us1 us2, walk s us1 (firstn k os) q /\ walk q us2 (skipn k os) e).
  { clear -W. revert W. generalize k. intros k' W. revert k'. induction W as [s H|s u o s1 us os e G W IH]; intros k'.
    - exists s, [], []. rewrite firstn_nil, skipn_nil. split; now constructor.
    - destruct k' as [|k']; [exists s, [], (u :: us); split; [constructor; apply G|econstructor; eauto]|]. destruct (IH k') as (q & us1 & us2 & I1 & I2). exists q, (u :: us1), us2. cbn [firstn skipn]. split; [econstructor; eauto|exact I2]. }
  destruct Cut as (q & us1 & us2 & W1 & W2). set (A := firstn k chs). set (B := skipn k os) in *. assert (EC : chs = A ++ B) by (unfold A; rewrite <- Tail; symmetry; apply firstn_skipn).
  assert (FA : Forall2 (close d) (firstn k os) A /\ sumdist os chs = sumdist (firstn k os) A).
  { unfold A. rewrite <- (firstn_skipn k os) in F. rewrite <- (firstn_skipn k chs) in F. split.
    - clear -F Lc. assert (Lk : length (firstn k os) = length (firstn k chs)) by (rewrite !firstn_length; lia). revert F Lk. generalize (firstn k os) (firstn k chs) (skipn k os) (skipn k chs). intros a b x y. revert b. induction a as [|a0 a IH]; intros [|b0 b] F LL; try discriminate LL; [constructor|]. cbn [app] in F. inversion F; subst. constructor; auto.
    - assert (AP : forall a b x y, length a = length b -> sumdist (a ++ x) (b ++ y) = (sumdist a b + sumdist x y)%nat) by (induction a as [|a0 a IH]; intros [|b0 b] x y X; try discriminate X; [reflexivity|]; cbn [app sumdist]; rewrite IH by (injection X; auto); lia).
      rewrite <- (firstn_skipn k os) at 1. rewrite <- (firstn_skipn k chs) at 1. rewrite AP by (rewrite !firstn_length; lia). rewrite Tail. fold B. rewrite sumdist_refl. lia. }
  destruct FA as (FA & ES). rewrite ES in HE |- *. assert (TQ := survives d MD s us1 _ q W1 A s [] [] 0 FA ltac:(now constructor)). cbn [app Nat.add] in TQ. rewrite EC in T.
  destruct (traced_split B A _ _ _ _ T) as (p & w1 & D1 & us' & os' & T1 & GW & _ & ->).
  destruct (tail_race d MD Hd OD q us2 B e W2 s s' A p w1 D1 _ _ us' os' e' TQ T1 GW Ne) as [R|R]; [exact R|].
  assert (LB : length B = L) by (unfold B; rewrite skipn_length; unfold k; lia). assert (LO := gwalk_length _ _ _ _ _ GW). assert (X := SP _ _ _ _ R ltac:(congruence)).
  destruct (walk_out _ _ _ _ W2) as (FB & _). rewrite (sumdist_concat os' B); [lia|]. assert (FO' := gwalk_out _ _ _ _ _ GW). clearbody B. clear -FB FO' LO. revert B FB LO. induction os' as [|o os' IH]; intros [|b B] FB LO; try discriminate LO; [constructor|]. inversion FB as [|? ? (_ & Lb)]; inversion FO'; subst. constructor; [congruence|]. apply IH; auto.
Qed.
(** * The transmission *)
Variable x : list Z.
Hypothesis Bx : bits x.
Let z0 := repeat 0 (all_cells c).
Let y := conv_from c (unpack c z0) x.
Let zt t := state_after c z0 x t.
Lemma out_block t : (t < conv_steps c x)%nat -> block N t y = map (conv_bit c (unpack c z0) x t) (seq 0 N).
Proof.
  intros Ht. unfold y, conv_from. rewrite block_concat.
  - now rewrite nth_map_seq by auto.
  - apply (cs_out c HS).
  - apply Forall_forall. intros r Hr. apply in_map_iff in Hr. destruct Hr as (q & <- & _). now rewrite map_length, seq_length.
  - now rewrite map_length, seq_length.
Qed.
Lemma zt_state t : isstate c (zt t).
Proof. destruct (zero_isstate c) as (A & B). split; [now apply state_after_length|now apply state_after_bits]. Qed.
Lemma zt_goes t : (t < conv_steps c x)%nat -> goes c (zt t) (chunk_at c x t) (block N t y) (zt (S t)).
Proof.
  intros Ht. apply (goes_step c HS). split; [apply zt_state|]. split; [split; [apply chunk_at_length|now apply chunk_at_bits]|]. unfold zt. rewrite (step_fun_at c HS HT HV z0 x t (zero_isstate c) Bx). f_equal. symmetry. now apply out_block.
Qed.
Lemma zt_walk : forall k t, (t + k <= conv_steps c x)%nat -> walk (zt t) (map (chunk_at c x) (seq t k)) (map (fun t => block N t y) (seq t k)) (zt (t + k)).
Proof.
  induction k as [|k IH]; intros t Ht; cbn [seq map].
  - rewrite Nat.add_0_r. constructor. apply zt_state.
  - econstructor; [apply zt_goes; lia|]. replace (t + S k)%nat with (S t + k)%nat by lia. apply IH. lia.
Qed.
Lemma block_block a m k b (l : list Z) : (k < m)%nat -> block a k (block (m * a) b l) = block a (b * m + k) l.
Proof. intros H. unfold block at 1 3. apply map_ext_in. intros i Hi. apply in_seq in Hi. rewrite block_nth by nia. f_equal. nia. Qed.
Lemma chunks_block a m b (l : list Z) : (0 < a)%nat -> chunks a (block (m * a) b l) = map (fun t => block a t l) (seq (b * m) m).
Proof.
  intros Ha. rewrite chunks_blocks by auto. rewrite block_length, Nat.div_mul by lia. apply (nth_ext_def []); [now rewrite !map_length, !seq_length|]. rewrite map_length, seq_length. intros k Hk. rewrite !nth_map_seq by auto. cbn [Nat.add]. now apply block_block.
Qed.
Lemma concat_chunks b T : concat (map (chunk_at c x) (seq (b * T) T)) = block (n * T) b x.
Proof.
  assert (Hn := gen_pos c HS). rewrite (map_ext _ (fun t => block n t x)) by (intros; apply chunk_at_block). rewrite <- chunks_block by auto. rewrite (Nat.mul_comm n T).
  rewrite chunks_blocks by auto. rewrite block_length, Nat.div_mul by lia. set (l := block (T * n) b x). assert (Ll : length l = (T * n)%nat) by apply block_length. clearbody l. apply (nth_ext_def 0).
  - rewrite (concat_length_const n); [now rewrite map_length, seq_length|]. apply Forall_forall. intros r Hr. apply in_map_iff in Hr. destruct Hr as (q & <- & _). apply block_length.
  - rewrite (concat_length_const n) by (apply Forall_forall; intros r Hr; apply in_map_iff in Hr; destruct Hr as (q & <- & _); apply block_length). rewrite map_length, seq_length. intros i Hi.
    assert (D := Nat.div_mod i n ltac:(lia)). assert (Mi := Nat.mod_upper_bound i n ltac:(lia)). assert (i / n < T)%nat by nia.
    rewrite (concat_nth_const 0 n) by (auto; apply Forall_forall; intros r Hr; apply in_map_iff in Hr; destruct Hr as (q & <- & _); apply block_length). rewrite nth_map_seq by auto. rewrite block_nth by auto. f_equal. lia.
Qed.
(** * Received streams *)
Variable r : list Z.
Hypothesis Br : bits r.
Hypothesis Lr : length r = length y.
Hypothesis SC : safe_code c.
Variable T : nat.
Hypothesis HT0 : (0 < T)%nat.
Hypothesis Hlen : (T * N <= length y)%nat.
Lemma y_length : length y = (conv_steps c x * N)%nat.
Proof. apply conv_from_length. Qed.
Lemma in_block b : (b < length y / (T * N))%nat -> (b * T + T <= conv_steps c x)%nat.
Proof. intros Hb. assert (Ho := cs_out c HS). assert (DL := div_mul_le (length y) (T * N) b ltac:(nia) Hb). rewrite y_length in DL. nia. Qed.
Lemma stream_right d E L : merge_distance c d -> (0 < d)%nat -> outputs_decide c -> spread c L (S E) -> (L <= T)%nat ->
  (forall k, (k < length y / (T * N) * T)%nat -> (2 * hdist (block N k y) (block N k r) < d)%nat) ->
  (forall b, (b < length y / (T * N))%nat -> (hdist (block (T * N) b y) (block (T * N) b r) <= E)%nat /\
     forall k, (T - L <= k < T)%nat -> block N (b * T + k) r = block N (b * T + k) y) ->
  exists dd last p, decoding_conv_viterbi r c (T * N) = Ok (dd, last, p) /\ length dd = (length y / (T * N) * (n * T))%nat /\
    (forall i, (i < length dd)%nat -> nth i dd 0 = nth i x 0) /\ val_msb (zt (length y / (T * N) * T)) = Z.of_nat last /\
    p = repeat 0%Q (length y / (T * N)).
Proof.
  intros MD Hd OD SP HL Near Tot. assert (Ho := cs_out c HS). assert (Hn := gen_pos c HS). destruct (tstream SC r (T * N) Br ltac:(nia) ltac:(lia)) as (dd & last & p & E1 & E2 & E3 & E4).
  rewrite Nat.div_mul in * by lia. rewrite Lr in *. set (nb := (length y / (T * N))%nat) in *. assert (Hnb : (0 < nb)%nat) by (apply Nat.div_str_pos; nia).
  assert (G : forall b, (b < nb)%nat -> block (n * T) b dd = block (n * T) b x /\ (b = (nb - 1)%nat -> val_msb (zt (b * T + T)) = Z.of_nat last) /\ nth b p 0%Q = 0%Q).
  { intros b Hb. destruct (E4 b Hb) as (s0 & e & D & ends & (Tr & Best) & El & (ND & Ends) & Ep). destruct (Tot b Hb) as (TE & Tail).
    assert (W := zt_walk T (b * T) (in_block b Hb)). set (os := map (fun t => block N t y) (seq (b * T) T)) in *. rewrite chunks_block in * by auto. set (chs := map (fun t => block N t r) (seq (b * T) T)) in *.
    assert (Lo : length os = T) by (unfold os; now rewrite map_length, seq_length).
    assert (F : Forall2 (close d) os chs).
    { unfold os, chs. assert (H : forall k, In k (seq (b * T) T) -> close d (block N k y) (block N k r)).
      { intros k Hk. apply in_seq in Hk. split; [now apply block_bits|]. split; [apply block_length|]. apply Near. nia. }
      revert H. generalize (seq (b * T) T). intros l. induction l as [|k l IH]; intros H; cbn [map]; constructor; [apply H; now left|]. apply IH. intros k' Hk'. apply H. now right. }
    assert (SD : sumdist os chs = hdist (block (T * N) b y) (block (T * N) b r)).
    { rewrite sumdist_concat by (unfold os, chs; generalize (seq (b * T) T); intros l; induction l as [|k l IH]; cbn [map]; constructor; [now rewrite !block_length|exact IH]).
      unfold os, chs. rewrite <- !chunks_block by auto. rewrite !chunks_concat_full by auto. rewrite !block_length, Nat.div_mul by lia. f_equal; apply firstn_all2; rewrite block_length; lia. }
    destruct (block_right d E L (zt (b * T)) _ os (zt (b * T + T)) chs MD Hd OD SP W F ltac:(lia)) as (R1 & R2); [|lia|].
    { rewrite Lo. unfold os, chs. apply (nth_ext_def []); [rewrite !skipn_length, !map_length; reflexivity|]. rewrite skipn_length, map_length, seq_length. intros i Hi. rewrite !nth_skipn. rewrite !nth_map_seq by lia. rewrite <- !Nat.add_assoc || idtac. apply Tail. lia. }
    rewrite concat_chunks in R1.
    assert (Ee : e = zt (b * T + T)).
    { destruct (list_eq_dec Z.eq_dec e (zt (b * T + T))) as [|Ne]; [auto|]. exfalso. assert (X1 := R2 _ _ _ _ Tr Ne). destruct (Best _ _ _ _ R1 (fun h => Ne (eq_sym h))) as [X2|(X2 & _)]; lia. }
    subst e. destruct (traced_unique _ _ _ _ _ Tr _ _ _ R1) as (-> & Ew & ED). split; [exact Ew|]. split; [exact El|]. rewrite Ep.
    assert (Eends : ends = [zt (b * T + T)]).
    { assert (All : forall e, In e ends -> e = zt (b * T + T)). { intros e He. apply Ends in He. destruct He as (s1 & w1 & T1). destruct (list_eq_dec Z.eq_dec e (zt (b * T + T))) as [|Ne]; [auto|]. exfalso. assert (X := R2 _ _ _ _ T1 Ne). lia. }
      assert (I0 : In (zt (b * T + T)) ends) by (apply Ends; eauto). destruct ends as [|e1 [|e2 l]]; [contradiction| |].
      - f_equal. apply All. now left.
      - exfalso. apply NoDup_cons_iff in ND. destruct ND as (NI & _). apply NI. left. rewrite (All e1), (All e2); auto; [now right; left|now left]. }
    rewrite Eends. reflexivity. }
  exists dd, last, p. split; [exact E1|]. split; [exact E2|]. split; [|split].
  - intros i Hi. rewrite E2 in Hi. set (K := (n * T)%nat) in *. assert (0 < K)%nat by (unfold K; nia). set (b := (i / K)%nat). assert (D := Nat.div_mod i K ltac:(lia)). assert (Mi := Nat.mod_upper_bound i K ltac:(lia)). fold b in D.
    assert (Hb : (b < nb)%nat) by nia. destruct (G b Hb) as (Q & _). apply (f_equal (fun l => nth (i mod K) l 0)) in Q. rewrite !block_nth in Q by auto. replace (b * K + i mod K)%nat with i in Q by lia. exact Q.
  - destruct (G (nb - 1)%nat ltac:(lia)) as (_ & Q & _). specialize (Q eq_refl). replace ((nb - 1) * T + T)%nat with (nb * T)%nat in Q by nia. exact Q.
  - apply (nth_ext_def 0%Q); [now rewrite repeat_length|]. rewrite E3. intros i Hi. rewrite nth_repeat. now apply G.
Qed.
(** if a block is decoded right, the decoder took a path with the right inputs *)
Lemma stream_steps b dd last p : (b < length y / (T * N))%nat -> decoding_conv_viterbi r c (T * N) = Ok (dd, last, p) -> block (n * T) b dd = block (n * T) b x ->
  exists s0, isstate c s0 /\ forall t, (t < T)%nat -> exists u o, preferred c (block N (b * T + t) r) (state_after c s0 (block (n * T) b x) (S t)) (state_after c s0 (block (n * T) b x) t) u o.
Proof.
  intros Hb Dec Eq. assert (Ho := cs_out c HS). assert (Hn := gen_pos c HS). destruct (tstream SC r (T * N) Br ltac:(nia) ltac:(lia)) as (dd' & last' & p' & E1 & _ & _ & E4).
  rewrite E1 in Dec. injection Dec as -> -> ->. rewrite Nat.div_mul in * by lia. rewrite Lr in *. destruct (E4 b Hb) as (s0 & e & D & _ & (Tr & _) & _). rewrite Eq, chunks_block in Tr by auto. exists s0. split; [exact (proj1 (traced_state _ _ _ _ _ Tr))|]. intros t Ht.
  assert (ES : seq (b * T) T = seq (b * T) t ++ (b * T + t)%nat :: seq (S (b * T + t)) (T - t - 1)).
  { assert (ET : T = (t + S (T - t - 1))%nat) by lia. generalize (b * T)%nat. intros q. rewrite ET at 1. rewrite seq_app. reflexivity. }
  rewrite ES, map_app in Tr. cbn [map] in Tr. destruct (traced_split _ _ _ _ _ _ Tr) as (s1 & w1 & D1 & us & os & T1 & GW & Ew & _).
  inversion GW as [|? ? u o s2 ? us2 os2 ? P2 W2]; subst. destruct (traced_state _ _ _ _ _ T1) as (H0 & H1). destruct (traced_facts _ _ _ _ _ T1) as (F1 & F2 & F3 & _ & _). rewrite map_length, seq_length in F1, F3.
  assert (T2 := traced_snoc _ _ _ _ _ _ _ _ _ _ T1 P2). destruct (traced_facts _ _ _ _ _ T2) as (F4 & F5 & F6 & _ & _). rewrite (app_length (map _ _) [_]), map_length, seq_length in F4, F6. cbn [length] in F4, F6. rewrite Nat.add_1_r in F4, F6.
  cbn [concat] in Ew. exists u, o. replace (state_after c s0 (block (n * T) b x) (S t)) with s2; [replace (state_after c s0 (block (n * T) b x) t) with s1; [exact P2|]|].
  - rewrite <- F3. apply state_after_ext. intros k Hk. rewrite Ew. symmetry. now apply (chunk_app_l c w1 _ t).
  - rewrite <- F6. apply state_after_ext. intros k Hk. rewrite Ew, app_assoc. symmetry. now apply (chunk_app_l c (w1 ++ u) _ (S t)).
Qed.
Lemma zt_block b t : (t <= T)%nat -> zt (b * T + t) = state_after c (zt (b * T)) (block (n * T) b x) t.
Proof.
  intros Ht. destruct (conv_split c HS HT HV z0 x (b * T) (block (n * T) b x) T (zero_isstate c) Bx) as (C1 & _); [now apply block_bits|intros k Hk; now apply chunk_block_at|]. now apply C1.
Qed.
Lemma stream_wrong m b t s' u' o' dd last p : inputs_decide c m -> (b < length y / (T * N))%nat -> (m <= t < T)%nat ->
  goes c s' u' o' (zt (S (b * T + t))) -> s' <> zt (b * T + t) ->
  ((hdist o' (block N (b * T + t) r) < hdist (block N (b * T + t) y) (block N (b * T + t) r))%nat \/
   (hdist o' (block N (b * T + t) r) = hdist (block N (b * T + t) y) (block N (b * T + t) r) /\ val_msb s' < val_msb (zt (b * T + t)))) ->
  decoding_conv_viterbi r c (T * N) = Ok (dd, last, p) -> block (n * T) b dd <> block (n * T) b x.
Proof.
  intros ID Hb Ht G' Ns Better Dec Eq. destruct (stream_steps b dd last p Hb Dec Eq) as (s0 & H0 & St). destruct (St t ltac:(lia)) as (u & o & P2).
  rewrite (ID s0 (zt (b * T)) _ (S t)), (ID s0 (zt (b * T)) _ t) in P2 by (auto; try lia; apply zt_state). rewrite <- !zt_block in P2 by lia. rewrite Nat.add_succ_r in P2.
  destruct P2 as (G2 & Pr). assert (G0 := zt_goes (b * T + t) ltac:(assert (X := in_block b Hb); lia)). destruct (goes_fun _ _ _ _ _ _ G2 G0) as (_ & ->). specialize (Pr _ _ _ G' Ns). lia.
Qed.
End err.
(** registers without feedback forget their initial content *)
Lemma reg_forget init init' x : forall t k, (k <= t)%nat -> firstn k (reg_hist [] init x t) = firstn k (reg_hist [] init' x t).
Proof. induction t as [|t IH]; intros k Hk; [now replace k with 0%nat by lia|]. destruct k as [|k]; [reflexivity|]. cbn [reg_hist firstn]. f_equal. apply IH. lia. Qed.
Lemma feedforward_decides c m : fdb c = None -> (forall i, (i < length (gen c))%nat -> (cells c i <= m)%nat) -> inputs_decide c m.
Proof.
  intros F H s s' w t _ _ Ht. unfold state_after. f_equal. apply map_ext_in. intros i Hi. apply in_seq in Hi. assert (X := H i ltac:(lia)).
  assert (E : fb_taps c i = []) by (unfold fb_taps, fb_get; now rewrite F). rewrite E. apply reg_forget. lia.
Qed.
(** * Checking the conditions for a given code *)
Definition transitions (c : conv_code) : list (list Z * list Z * list Z * list Z) :=
  map (fun p => (fst p, snd p, conv_from c (unpack c (fst p)) (snd p), state_after c (fst p) (snd p) 1)) (list_prod (get_bin_perm (all_cells c)) (get_bin_perm (length (gen c)))).
Lemma goes_listed c s u o e : goes c s u o e -> In (s, u, o, e) (transitions c).
Proof.
  intros (A & B & <- & <-). apply in_map_iff. exists (s, u). cbn [fst snd]. split; [reflexivity|]. apply in_prod; apply get_bin_perm_In; [exact A|exact B].
Qed.
Definition eqw (a b : list Z) : bool := if list_eq_dec Z.eq_dec a b then true else false.
Lemma eqw_true a b : eqw a b = true <-> a = b.
Proof. unfold eqw. destruct (list_eq_dec Z.eq_dec a b); split; congruence. Qed.
Definition merge_check (c : conv_code) (d : nat) : bool :=
  let l := transitions c in forallb (fun p => forallb (fun q => match p, q with (s, _, o, e), (s', _, o', e') => eqw s s' || negb (eqw e e') || (d <=? hdist o o')%nat end) l) l.
Lemma merge_check_ok c d : merge_check c d = true -> merge_distance c d.
Proof.
  intros H s u o s' u' o' e G G' Ns. unfold merge_check in H. rewrite forallb_forall in H. specialize (H _ (goes_listed _ _ _ _ _ G)). rewrite forallb_forall in H. specialize (H _ (goes_listed _ _ _ _ _ G')). cbn beta iota in H.
  destruct (eqw s s') eqn:E1; [apply eqw_true in E1; contradiction|]. replace (eqw e e) with true in H by (symmetry; now apply eqw_true). cbn [orb negb] in H. now apply Nat.leb_le.
Qed.
Definition decide_check (c : conv_code) : bool :=
  let l := transitions c in forallb (fun p => forallb (fun q => match p, q with (s, _, o, e), (s', _, o', e') => negb (eqw s s') || negb (eqw o o') || eqw e e' end) l) l.
Lemma decide_check_ok c : decide_check c = true -> outputs_decide c.
Proof.
  intros H s u o e u' e' G G'. unfold decide_check in H. rewrite forallb_forall in H. specialize (H _ (goes_listed _ _ _ _ _ G)). rewrite forallb_forall in H. specialize (H _ (goes_listed _ _ _ _ _ G')). cbn beta iota in H.
  replace (eqw s s) with true in H by (symmetry; now apply eqw_true). replace (eqw o o) with true in H by (symmetry; now apply eqw_true). cbn [orb negb] in H. now apply eqw_true.
Qed.
Fixpoint spread_from (c : conv_code) (l : list (list Z * list Z * list Z * list Z)) (L x : nat) (s s' : list Z) : bool :=
  if eqw s s' then true else match L with
  | O => (x =? 0)%nat
  | S L' => if (x =? 0)%nat then true else forallb (fun p => match p with (a, _, o, e) => if eqw a s then forallb (fun q => match q with (a', _, o', e') => if eqw a' s' then spread_from c l L' (x - hdist o o') e e' else true end) l else true end) l
  end.
Definition spread_check (c : conv_code) (L x : nat) : bool :=
  let l := transitions c in forallb (fun s => forallb (spread_from c l L x s) (get_bin_perm (all_cells c))) (get_bin_perm (all_cells c)).
Lemma apart_state c s os s' os' : apart c s os s' os' -> isstate c s /\ isstate c s' /\ s <> s'.
Proof. induction 1 as [s s' A B D|s u o s1 os s' u' o' s1' os' D G G' H IH]; [auto|]. split; [apply G|]. split; [apply G'|exact D]. Qed.
Lemma spread_from_ok c : code_shape c -> forall s os s' os', apart c s os s' os' -> forall x, spread_from c (transitions c) (length os) x s s' = true -> (x <= hdist (concat os) (concat os'))%nat.
Proof.
  intros HS s os s' os' H. induction H as [s s' A B D|s u o s1 os s' u' o' s1' os' D G G' H IH]; intros x C; cbn [length spread_from] in C.
  - destruct (eqw s s') eqn:E; [apply eqw_true in E; contradiction|]. apply Nat.eqb_eq in C. lia.
  - destruct (eqw s s') eqn:E; [apply eqw_true in E; contradiction|]. destruct (x =? 0)%nat eqn:E0; [apply Nat.eqb_eq in E0; lia|].
    rewrite forallb_forall in C. specialize (C _ (goes_listed _ _ _ _ _ G)). cbn beta iota in C. replace (eqw s s) with true in C by (symmetry; now apply eqw_true).
    rewrite forallb_forall in C. specialize (C _ (goes_listed _ _ _ _ _ G')). cbn beta iota in C. replace (eqw s' s') with true in C by (symmetry; now apply eqw_true).
    specialize (IH _ C). cbn [concat]. rewrite hdist_app; [lia|]. destruct (goes_out c HS _ _ _ _ G) as (-> & _), (goes_out c HS _ _ _ _ G') as (-> & _). reflexivity.
Qed.
Lemma spread_check_ok c L x : code_shape c -> spread_check c L x = true -> spread c L x.
Proof.
  intros HS C s os s' os' H <-. destruct (apart_state _ _ _ _ _ H) as ((A1 & A2) & (B1 & B2) & _). unfold spread_check in C. rewrite forallb_forall in C. specialize (C s ltac:(apply get_bin_perm_In; split; auto)). rewrite forallb_forall in C. specialize (C s' ltac:(apply get_bin_perm_In; split; auto)). now apply (spread_from_ok c HS _ _ _ _ H).
Qed.
Definition safe_check (c : conv_code) : bool :=
  let l := transitions c in let st := get_bin_perm (all_cells c) in
  forallb (fun e => forallb (fun s => existsb (fun p => match p with (a, _, _, b) => eqw a s && eqw b e end) l) st ||
    existsb (fun s => existsb (fun p => match p with (a, _, _, b) => eqw a s && eqw b e end) l && forallb (fun p => match p with (a, _, o, b) => negb (eqw a s) || negb (eqw b e) || negb (eqw o (repeat 1 (n_out c))) end) l) st) st.
Lemma listed_goes c s u o e : In (s, u, o, e) (transitions c) -> goes c s u o e.
Proof.
  intros H. apply in_map_iff in H. destruct H as ((a & b) & E & P). cbn [fst snd] in E. injection E as <- <- <- <-. apply in_prod_iff in P. destruct P as (P1 & P2). apply get_bin_perm_In in P1, P2. split; [split; apply P1|]. split; [split; apply P2|]. auto.
Qed.
Lemma safe_check_ok c : safe_check c = true -> safe_code c.
Proof.
  intros H e (Le & Be). unfold safe_check in H. rewrite forallb_forall in H. specialize (H e ltac:(apply get_bin_perm_In; split; auto)). apply orb_true_iff in H.
  assert (Ex : forall s, existsb (fun p => match p with (a, _, _, b) => eqw a s && eqw b e end) (transitions c) = true -> exists u o, goes c s u o e).
  { intros s X. apply existsb_exists in X. destruct X as ((((a & u) & o) & b) & X1 & X2). apply andb_true_iff in X2. destruct X2 as (X2 & X3). apply eqw_true in X2, X3. subst. exists u, o. now apply listed_goes. }
  destruct H as [H|H].
  - left. intros s (Ls & Bs). rewrite forallb_forall in H. apply Ex, H. apply get_bin_perm_In; split; auto.
  - right. apply existsb_exists in H. destruct H as (s & _ & H). apply andb_true_iff in H. destruct H as (H1 & H2). exists s. split; [now apply Ex|]. intros u o G ->. rewrite forallb_forall in H2. specialize (H2 _ (goes_listed _ _ _ _ _ G)). cbn beta iota in H2.
    rewrite !(proj2 (eqw_true _ _) eq_refl) in H2. discriminate H2.
Qed.
