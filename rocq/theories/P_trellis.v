(** Proofs for the trellis: it is the shift-register machine of S_conv.v. *)
From Verif Require Import Py B_list M_aux S_aux P_gf2 P_aux M_coding M_linear S_linear P_coding P_linear M_conv S_conv P_conv.
Ltac Zify.zify_post_hook ::= Z.div_mod_to_equations.

Lemma memory_cells c : memory c = map (cells c) (seq 0 (length (gen c))).
Proof.
  unfold memory. apply (nth_ext_def 0%nat); [now rewrite !map_length, seq_length|]. intros i Hi. rewrite map_length in Hi.
  rewrite (map_nth_lt _ _ _ []) by auto. rewrite nth_map_seq by auto. reflexivity.
Qed.
Lemma mem_total_cells c : mem_total c = all_cells c. Proof. unfold mem_total, all_cells. now rewrite memory_cells. Qed.
Lemma mem_start_cells c i : (i <= length (gen c))%nat -> mem_start c i = cells_before c i.
Proof.
  intros H. unfold mem_start, cells_before. rewrite memory_cells. rewrite firstn_map. do 2 f_equal.
  clear -H. revert H. generalize (length (gen c)) as n. generalize 0%nat as s. induction i; intros s n H; [reflexivity|].
  destruct n; [lia|]. cbn [seq firstn]. f_equal. apply IHi. lia.
Qed.
Lemma mem_slice_unpack c st i : (i < length (gen c))%nat -> mem_slice c st i = unpack c st i.
Proof.
  intros H. unfold mem_slice, unpack. rewrite mem_start_cells by lia. rewrite memory_cells, nth_map_seq by auto. reflexivity.
Qed.
(** Unpacking a packed list of registers. *)
Lemma sum_app a b : fold_right Nat.add 0%nat (a ++ b) = (fold_right Nat.add 0 a + fold_right Nat.add 0 b)%nat.
Proof. induction a; simpl; lia. Qed.
Lemma concat_slice {A} (segs : list (list A)) : forall i, (i < length segs)%nat ->
  firstn (length (nth i segs [])) (skipn (fold_right Nat.add 0%nat (map (@length A) (firstn i segs))) (concat segs)) = nth i segs [].
Proof.
  induction segs as [|s segs IH]; intros i Hi; [simpl in Hi; lia|]. destruct i as [|i].
  - cbn [nth firstn map fold_right skipn concat]. rewrite firstn_app, Nat.sub_diag, firstn_O, app_nil_r, firstn_all. reflexivity.
  - cbn [nth firstn map fold_right concat]. rewrite skipn_app, skipn_all2 by lia. rewrite app_nil_l.
    replace (length s + fold_right Nat.add 0 (map (length (A:=A)) (firstn i segs)) - length s)%nat with (fold_right Nat.add 0%nat (map (length (A:=A)) (firstn i segs))) by lia.
    apply IH. simpl in Hi; lia.
Qed.
Lemma firstn_seq n s m : (n <= m)%nat -> firstn n (seq s m) = seq s n.
Proof. revert s m. induction n; intros s m H; [reflexivity|]. destruct m; [lia|]. cbn [seq firstn]. f_equal. apply IHn. lia. Qed.
Lemma unpack_pack c (r : nat -> list Z) i : (forall i, (i < length (gen c))%nat -> length (r i) = cells c i) -> (i < length (gen c))%nat ->
  unpack c (concat (map r (seq 0 (length (gen c))))) i = r i.
Proof.
  intros H Hi. set (n := length (gen c)) in *. assert (X := concat_slice (map r (seq 0 n)) i). rewrite map_length, seq_length in X. specialize (X Hi).
  rewrite nth_map_seq in X by auto. cbn [Nat.add] in X. rewrite H in X by auto. etransitivity; [|exact X]. unfold unpack. f_equal. f_equal.
  unfold cells_before. f_equal. rewrite firstn_map, map_map. rewrite firstn_seq by lia. apply map_ext_in.
  intros k Hk. apply in_seq in Hk. symmetry. apply H. lia.
Qed.
Lemma cells_before_S c i : cells_before c (S i) = (cells_before c i + cells c i)%nat.
Proof. unfold cells_before. rewrite seq_S, map_app, sum_app. simpl. lia. Qed.
Lemma cells_before_le c i n : (i <= n)%nat -> (cells_before c i <= cells_before c n)%nat.
Proof. induction 1; [lia|]. rewrite cells_before_S. lia. Qed.
Lemma cells_before_all c i : (i < length (gen c))%nat -> (cells_before c i + cells c i <= all_cells c)%nat.
Proof. intros H. rewrite <- cells_before_S. change (all_cells c) with (cells_before c (length (gen c))). apply cells_before_le. lia. Qed.
Lemma unpack_length c st i : (i < length (gen c))%nat -> length st = all_cells c -> length (unpack c st i) = cells c i.
Proof. intros H L. assert (X := cells_before_all c i H). unfold unpack. rewrite firstn_length, skipn_length. lia. Qed.
Lemma unpack_bits c st i : bits st -> bits (unpack c st i).
Proof. intros H. unfold unpack. apply Forall_firstn, Forall_skipn, H. Qed.
Lemma pack_unpack c st : length st = all_cells c -> concat (map (unpack c st) (seq 0 (length (gen c)))) = st.
Proof.
  intros L. assert (G : forall n, (n <= length (gen c))%nat -> concat (map (unpack c st) (seq 0 n)) = firstn (cells_before c n) st).
  { induction n; intros H; [reflexivity|]. rewrite seq_S, map_app, concat_app, IHn by lia. cbn [map concat Nat.add]. rewrite app_nil_r.
    rewrite cells_before_S. unfold unpack. assert (X := cells_before_all c n ltac:(lia)).
    rewrite <- (firstn_skipn (cells_before c n) st) at 3. rewrite firstn_app, firstn_firstn, firstn_length.
    replace (Nat.min (cells_before c n + cells c n) (cells_before c n)) with (cells_before c n) by lia. f_equal. f_equal. lia. }
  rewrite G by lia. apply firstn_all2. unfold all_cells in L. unfold cells_before. lia.
Qed.

Lemma state_after_0 c st u : length st = all_cells c -> state_after c st u 0 = st.
Proof.
  intros L. etransitivity; [|exact (pack_unpack c st L)]. unfold state_after. f_equal. apply map_ext_in. intros i Hi. apply in_seq in Hi.
  cbn [reg_hist]. apply firstn_all2. rewrite unpack_length; auto; lia.
Qed.
Lemma state_seg_length c st u t i : length st = all_cells c -> (i < length (gen c))%nat ->
  length (firstn (cells c i) (reg_hist (fb_taps c i) (unpack c st i) (in_bit c u i) t)) = cells c i.
Proof. intros L H. rewrite firstn_length, reg_hist_length, unpack_length by auto. lia. Qed.
Lemma concat_segs_length (f : nat -> list Z) (g : nat -> nat) l : (forall i, In i l -> length (f i) = g i) ->
  length (concat (map f l)) = fold_right Nat.add 0%nat (map g l).
Proof. induction l as [|a l IH]; intros H; [reflexivity|]. cbn [map concat fold_right]. rewrite app_length, H, IH; auto; [intros; apply H; right; auto|left; auto]. Qed.
Lemma state_after_length c st u t : length st = all_cells c -> length (state_after c st u t) = all_cells c.
Proof. intros L. apply concat_segs_length. intros i Hi. apply in_seq in Hi. apply state_seg_length; auto; lia. Qed.
Lemma state_after_bits c st u t : bits st -> bits (state_after c st u t).
Proof.
  intros B. apply bits_concat. apply Forall_forall. intros s Hs. apply in_map_iff in Hs. destruct Hs as (i & <- & _).
  apply Forall_firstn, reg_hist_bits, unpack_bits, B.
Qed.
Lemma unpack_state_after c st u t i : length st = all_cells c -> (i < length (gen c))%nat ->
  unpack c (state_after c st u t) i = firstn (cells c i) (reg_hist (fb_taps c i) (unpack c st i) (in_bit c u i) t).
Proof.
  intros L H. unfold state_after.
  apply (unpack_pack c (fun i => firstn (cells c i) (reg_hist (fb_taps c i) (unpack c st i) (in_bit c u i) t))); auto.
  intros; apply state_seg_length; auto.
Qed.

(** * one step *)
Definition chunk_at (c : conv_code) (u : list Z) (t : nat) : list Z := map (fun i => in_bit c u i t) (seq 0 (length (gen c))).
Lemma lxor_fold (l : list Z) : forall acc, bits l -> isbit acc -> fold_left Z.lxor l acc = (acc + sumZ l) mod 2.
Proof.
  induction l as [|a l IH]; intros acc B Ba; cbn [fold_left].
  - change (sumZ []) with 0. destruct Ba; subst; reflexivity.
  - inversion B as [|? ? Hl Hb]; subst. change (sumZ (a :: l)) with (a + sumZ l).
    rewrite IH; auto; destruct Ba, Hl; subst; cbn [Z.lxor Pos.lxor]; (try (left; reflexivity)); (try (right; reflexivity)); try (f_equal; lia).
    change (Z.of_N _) with 0. lia.
Qed.
Section step.
Variable c : conv_code.
Hypothesis HS : code_shape c.
Hypothesis HT : trellis_shape c.
Hypothesis HV : forall x, bits x -> check_valid_conv x c = Ok tt.
Variables (st u : list Z).
Hypothesis Lst : length st = all_cells c.
Hypothesis Bst : bits st.
Hypothesis Bu : bits u.
Notation n := (length (gen c)).
Let R i t := reg_hist (fb_taps c i) (unpack c st i) (in_bit c u i) t.

Lemma poly_len i j : (i < n)%nat -> (j < n_out c)%nat -> length (poly c i j) = S (cells c i).
Proof. intros Hi Hj. destruct (cs_cols c HS i j Hi Hj) as (A & B & _). unfold cells. lia. Qed.
Lemma fb_taps_len i : (i < n)%nat -> (length (fb_taps c i) <= cells c i)%nat.
Proof.
  intros Hi. unfold fb_taps. destruct (fb_get c i) as [f|] eqn:E; [|simpl; lia]. assert (X := proj1 HT i f Hi E). unfold cells.
  destruct f; simpl in *; lia.
Qed.
Lemma mem_new_ok t i : (i < n)%nat ->
  mem_new c (state_after c st u t) i (in_bit c u i t) = Ok (firstn (S (cells c i)) (R i (S t))).
Proof.
  intros Hi. unfold mem_new. rewrite mem_slice_unpack by auto. rewrite unpack_state_after by auto. fold (R i t).
  assert (L : length (firstn (cells c i) (R i t)) = cells c i) by (apply state_seg_length; auto).
  destruct (fb_get c i) as [f|] eqn:E.
  - assert (X := proj1 HT i f Hi E). assert (F : fb_taps c i = tl f) by (unfold fb_taps; now rewrite E).
    assert (Lt : length (tl f) = cells c i) by (unfold cells; destruct f; simpl in *; lia).
    rewrite L, Lt, Nat.eqb_refl. f_equal. unfold R. cbn [reg_hist firstn]. fold (R i t). f_equal. f_equal. f_equal.
    rewrite F, dotZ_comm. apply dotZ_firstn. lia.
  - assert (F : fb_taps c i = []) by (unfold fb_taps; now rewrite E). f_equal. unfold R. cbn [reg_hist firstn]. fold (R i t). f_equal.
    rewrite F. cbn [dotZ]. assert (isbit (in_bit c u i t)) as [->| ->] by (apply bits_nth; auto); reflexivity.
Qed.
Lemma trellis_out_ok t i j : (i < n)%nat -> (j < n_out c)%nat ->
  trellis_out c (in_bit c u i t) (firstn (S (cells c i)) (R i (S t))) i j =
  dotZ (poly c i j) (reg_hist (out_taps c i j) (unpack c st i) (in_bit c u i) (S t)) mod 2.
Proof.
  intros Hi Hj. unfold trellis_out. fold (poly c i j). assert (Lp := poly_len i j Hi Hj).
  assert (Bx : isbit (in_bit c u i t)) by (apply bits_nth; auto). assert (UB := uf_bit c i j HS Hi Hj).
  assert (Bp : bits (poly c i j)) by apply (cs_cols c HS i j Hi Hj).
  assert (Sys : Forall (eq 0) (tl (poly c i j)) -> out_taps c i j = [] -> in_bit c u i t * nth 0 (poly c i j) 0 =
     dotZ (poly c i j) (reg_hist (out_taps c i j) (unpack c st i) (in_bit c u i) (S t)) mod 2).
  { intros F0 O0. rewrite O0. cbn [reg_hist dotZ]. rewrite dotZ_tl0 by auto. assert (B0 := bits_nth _ 0%nat Bp).
    rewrite Z.add_0_r. destruct Bx as [Q|Q], B0 as [Q2|Q2]; rewrite Q, Q2; reflexivity. }
  destruct (fdb c) as [fl|] eqn:E.
  - destruct ((length (poly c i j) =? 1)%nat || (uf_get c i j =? 0))%bool eqn:D.
    + apply Sys.
      * rewrite orb_true_iff in D. destruct D as [D|D].
        { apply Nat.eqb_eq in D. destruct (poly c i j) as [|a [|b r]]; try discriminate D. constructor. }
        apply Z.eqb_eq in D. destruct (fb_get c i) as [f|] eqn:Ef.
        { apply (check_fb_false c i j [] f); auto. apply HV. constructor. }
        apply (proj2 HT); auto. rewrite E. discriminate.
      * unfold out_taps. destruct ((uf_get c i j =? 0) && negb (length (poly c i j) =? 1)%nat)%bool eqn:O; auto.
        assert (cells c i = 0%nat) as C0.
        { rewrite orb_true_iff in D. destruct D as [D|D]; [apply Nat.eqb_eq in D; lia|]. rewrite D in O. cbn [andb] in O.
          apply negb_false_iff in O. apply Nat.eqb_eq in O. lia. }
        assert (X := fb_taps_len i Hi). destruct (fb_taps c i); [auto|simpl in X; lia].
    + rewrite orb_false_iff in D. destruct D as [D1 D2]. unfold out_taps. rewrite D2. cbn [andb].
      f_equal. fold (R i (S t)). apply dotZ_firstn. lia.
  - assert (Fn : fb_taps c i = []) by (unfold fb_taps, fb_get; now rewrite E).
    f_equal. rewrite dotZ_firstn by lia. f_equal. unfold R, out_taps. rewrite Fn.
    match goal with |- context [if ?b then _ else _] => destruct b end; reflexivity.
Qed.
Lemma removelast_firstn_S m (h : list Z) : (m < length h)%nat -> removelast (firstn (S m) h) = firstn m h.
Proof. intros H. apply removelast_firstn. lia. Qed.
Lemma trellis_step_ok t :
  trellis_step c (state_after c st u t) (chunk_at c u t) =
  Ok (map (conv_bit c (unpack c st) u t) (seq 0 (n_out c)), state_after c st u (S t)).
Proof.
  unfold trellis_step. rewrite (map_res_ok _ (fun kk => firstn (S (cells c kk)) (R kk (S t)))).
  2:{ intros i Hi. apply in_seq in Hi. unfold chunk_at. rewrite nth_map_seq by lia. apply mem_new_ok. lia. }
  cbn [bind]. f_equal. f_equal.
  - apply map_ext_in. intros j Hj. apply in_seq in Hj. unfold conv_bit. rewrite lxor_fold; [| |left; reflexivity].
    + rewrite Z.add_0_l. apply sumZ_mod. intros i Hi. apply in_seq in Hi. unfold chunk_at. rewrite !nth_map_seq by lia. cbn [Nat.add].
      rewrite trellis_out_ok by lia. now rewrite Z.mod_mod by lia.
    + apply Forall_forall. intros y Hy. apply in_map_iff in Hy. destruct Hy as (i & <- & Hi). apply in_seq in Hi.
      unfold chunk_at. rewrite !nth_map_seq by lia. cbn [Nat.add]. rewrite trellis_out_ok by lia. apply isbit_mod.
  - rewrite map_map. unfold state_after. f_equal. apply map_ext_in. intros i Hi. apply in_seq in Hi.
    apply removelast_firstn_S. unfold R. rewrite reg_hist_length, unpack_length by (auto; lia). lia.
Qed.
End step.

Lemma check_any x y c : check_valid_conv x c = Ok tt -> bits y -> check_valid_conv y c = Ok tt.
Proof.
  intros H B. unfold check_valid_conv in *. rewrite check_binary_bits by auto. destruct (check_binary x); [|discriminate H]. exact H.
Qed.
Lemma in_bit_chunk c u t : (0 < length (gen c))%nat -> forall i, (i < length (gen c))%nat -> in_bit c (chunk_at c u t) i 0 = in_bit c u i t.
Proof. intros Hn i Hi. unfold in_bit at 1. cbn [Nat.mul Nat.add]. unfold chunk_at. now rewrite nth_map_seq. Qed.
Lemma chunk_at_0 c inp : length inp = length (gen c) -> chunk_at c inp 0 = inp.
Proof.
  intros L. apply (nth_ext_def 0); [unfold chunk_at; now rewrite map_length, seq_length|]. unfold chunk_at. rewrite map_length, seq_length.
  intros i Hi. rewrite nth_map_seq by auto. reflexivity.
Qed.
Lemma chunk_at_length c u t : length (chunk_at c u t) = length (gen c).
Proof. unfold chunk_at. now rewrite map_length, seq_length. Qed.
Lemma chunk_at_bits c u t : bits u -> bits (chunk_at c u t).
Proof. intros B. apply Forall_forall. intros y Hy. apply in_map_iff in Hy. destruct Hy as (i & <- & _). now apply bits_nth. Qed.
Lemma chunk_at_block c u t : chunk_at c u t = block (length (gen c)) t u.
Proof. reflexivity. Qed.

(** * the dictionaries *)
Definition step_fun (c : conv_code) (st inp : list Z) : list Z * list Z :=
  (map (conv_bit c (unpack c st) inp 0) (seq 0 (n_out c)), state_after c st inp 1).
Lemma states_In c st : In st (get_bin_perm (mem_total c)) <-> isstate c st.
Proof. rewrite get_bin_perm_In, mem_total_cells. unfold bv, isstate. tauto. Qed.
Lemma inputs_In c i : In i (get_bin_perm (length (gen c))) <-> isinput c i.
Proof. rewrite get_bin_perm_In. unfold bv, isinput. tauto. Qed.
Lemma eqlb_true u v : eqlb u v = true <-> u = v.
Proof. unfold eqlb. destruct (list_eq_dec Z.eq_dec u v); split; congruence. Qed.
Definition entries (c : conv_code) : list trellis_entry :=
  concat (map (fun st => map (fun inp => (st, inp, fst (step_fun c st inp), snd (step_fun c st inp))) (get_bin_perm (length (gen c))))
    (get_bin_perm (mem_total c))).
Lemma entries_In c s i o ns : In (s, i, o, ns) (entries c) <-> isstate c s /\ isinput c i /\ (o, ns) = step_fun c s i.
Proof.
  unfold entries. rewrite in_concat. split.
  - intros (l & Hl & He). apply in_map_iff in Hl. destruct Hl as (s' & <- & Hs). apply in_map_iff in He. destruct He as (i' & E & Hi).
    injection E as -> -> <- <-. rewrite states_In in Hs. rewrite inputs_In in Hi. split; auto.
  - intros (Hs & Hi & E). rewrite <- states_In in Hs. rewrite <- inputs_In in Hi.
    eexists. split; [apply in_map; exact Hs|]. apply in_map_iff. exists i. split; auto. rewrite <- E. reflexivity.
Qed.
Section dict.
Variable c : conv_code.
Hypothesis HS : code_shape c.
Hypothesis HT : trellis_shape c.
Hypothesis HV : check_valid_conv [] c = Ok tt.
Lemma step_ok st inp : isstate c st -> isinput c inp -> trellis_step c st inp = Ok (step_fun c st inp).
Proof.
  intros [L B] [Li Bi]. assert (X := trellis_step_ok c HS HT (fun x Hx => check_any [] x c HV Hx) st inp L Bi 0).
  rewrite state_after_0, chunk_at_0 in X by auto. exact X.
Qed.
Lemma trellis_entries_ok : trellis_entries c = Ok (entries c).
Proof.
  unfold trellis_entries. rewrite (map_res_ok _ (fun st => map (fun inp => (st, inp, fst (step_fun c st inp), snd (step_fun c st inp))) (get_bin_perm (length (gen c))))).
  - reflexivity.
  - intros st Hs. apply map_res_ok. intros i Hi. rewrite states_In in Hs. rewrite inputs_In in Hi. rewrite step_ok by auto. reflexivity.
Qed.
Lemma trellis_get_ok st inp : isstate c st -> isinput c inp -> trellis_get (entries c) inp st = Ok (step_fun c st inp).
Proof.
  intros Hs Hi. unfold trellis_get. destruct (find _ _) as [[[[s i] o] ns]|] eqn:F.
  - apply find_some in F. destruct F as [F1 F2]. apply in_rev, entries_In in F1. destruct F1 as (_ & _ & E).
    rewrite andb_true_iff, !eqlb_true in F2. destruct F2; subst. now rewrite E.
  - exfalso. assert (X := find_none _ _ F (st, inp, fst (step_fun c st inp), snd (step_fun c st inp))). cbn beta iota in X.
    rewrite (proj2 (eqlb_true inp inp) eq_refl), (proj2 (eqlb_true st st) eq_refl) in X. cbn [andb] in X.
    enough (true = false) by discriminate. apply X. rewrite <- in_rev. apply entries_In. split; auto.
Qed.
Lemma io_get_some s ns i o : io_get (entries c) s ns = Some (i, o) -> isstate c s /\ isinput c i /\ (o, ns) = step_fun c s i.
Proof.
  unfold io_get. destruct (find _ _) as [[[[s' i'] o'] ns']|] eqn:F; [|discriminate]. intros E. injection E as <- <-.
  apply find_some in F. destruct F as [F1 F2]. apply in_rev, entries_In in F1. rewrite andb_true_iff, !eqlb_true in F2. destruct F2; subst. auto.
Qed.
Lemma io_get_none s i : isstate c s -> isinput c i -> io_get (entries c) s (snd (step_fun c s i)) <> None.
Proof.
  intros Hs Hi. unfold io_get. destruct (find _ _) as [[[[s' i'] o'] ns']|] eqn:F; [discriminate|]. intros _.
  assert (X := find_none _ _ F (s, i, fst (step_fun c s i), snd (step_fun c s i))). cbn beta iota in X.
  rewrite !(proj2 (eqlb_true _ _) eq_refl) in X. cbn [andb] in X.
  enough (true = false) by discriminate. apply X. rewrite <- in_rev. apply entries_In. split; auto.
Qed.
Lemma step_fun_next st inp : isstate c st -> isstate c (snd (step_fun c st inp)).
Proof. intros [L B]. split; [now apply state_after_length|now apply state_after_bits]. Qed.
Lemma step_fun_out st inp : length (fst (step_fun c st inp)) = n_out c /\ bits (fst (step_fun c st inp)).
Proof.
  split; [cbn [fst step_fun]; now rewrite map_length, seq_length|]. apply Forall_forall. intros y Hy. apply in_map_iff in Hy. destruct Hy as (j & <- & _). apply isbit_mod.
Qed.
Lemma gen_pos : (0 < length (gen c))%nat.
Proof. assert (X := cs_in c HS). destruct (gen c); [congruence|simpl; lia]. Qed.
(** the step at time [t] *)
Lemma step_fun_at st u t : isstate c st -> bits u ->
  step_fun c (state_after c st u t) (chunk_at c u t) = (map (conv_bit c (unpack c st) u t) (seq 0 (n_out c)), state_after c st u (S t)).
Proof.
  intros [L B] Bu. assert (X := trellis_step_ok c HS HT (fun x Hx => check_any [] x c HV Hx) st u L Bu t).
  rewrite step_ok in X.
  - now apply (f_equal (fun r => match r with Ok a => a | Raise _ => ([], []) end)) in X.
  - split; [now apply state_after_length|now apply state_after_bits].
  - split; [apply chunk_at_length|now apply chunk_at_bits].
Qed.
Lemma walk_app es st a b : trellis_walk es st (a ++ b) =
  (r <- trellis_walk es st a ;; r2 <- trellis_walk es (snd r) b ;; Ok (fst r ++ fst r2, snd r2)).
Proof.
  revert st. induction a as [|ch a IH]; intros st; cbn [app trellis_walk bind].
  - cbn [fst snd]. destruct (trellis_walk es st b) as [[o s]|]; reflexivity.
  - destruct (trellis_get es ch st) as [r|]; [|reflexivity]. cbn [bind]. rewrite IH. destruct (trellis_walk es (snd r) a) as [r2|]; [|reflexivity].
    cbn [bind fst snd]. destruct (trellis_walk es (snd r2) b) as [r3|]; [|reflexivity]. cbn [bind fst snd]. now rewrite app_assoc.
Qed.
Lemma walk_ok st u T : isstate c st -> bits u ->
  trellis_walk (entries c) st (map (chunk_at c u) (seq 0 T)) =
  Ok (concat (map (fun t => map (conv_bit c (unpack c st) u t) (seq 0 (n_out c))) (seq 0 T)), state_after c st u T).
Proof.
  intros Hs Bu. induction T.
  - cbn [seq map trellis_walk concat]. rewrite state_after_0 by apply Hs. reflexivity.
  - rewrite seq_S, map_app, walk_app, IHT. cbn [bind fst snd map trellis_walk Nat.add]. rewrite trellis_get_ok.
    + cbn [bind]. rewrite step_fun_at by auto. cbn [fst snd bind]. f_equal. f_equal. rewrite map_app, concat_app. cbn [map concat]. reflexivity.
    + destruct Hs. split; [now apply state_after_length|now apply state_after_bits].
    + split; [apply chunk_at_length|now apply chunk_at_bits].
Qed.
End dict.

(** * conv_from: initial zero registers, lengths *)
Lemma conv_from_zero_state c u : (0 < length (gen c))%nat -> conv_from c (unpack c (repeat 0 (all_cells c))) u = conv_from c zero_regs u.
Proof.
  intros Hn. unfold conv_from. f_equal. apply map_ext. intros t. apply map_ext. intros j. unfold conv_bit. f_equal. f_equal.
  apply map_ext_in. intros i Hi. apply in_seq in Hi.
  assert (E : unpack c (repeat 0 (all_cells c)) i = repeat 0 (cells c i)).
  { apply (nth_ext_def 0); [rewrite repeat_length; apply unpack_length; [lia|apply repeat_length]|].
    rewrite unpack_length by (try lia; apply repeat_length). intros k Hk. unfold unpack. assert (X := cells_before_all c i ltac:(lia)).
    rewrite nth_firstn, nth_skipn, !(repeat_nth 0) by lia. reflexivity. }
  rewrite E, reg_hist_app_zeros, dotZ_app_zeros. reflexivity.
Qed.
Lemma zero_isstate c : isstate c (repeat 0 (all_cells c)).
Proof. split; [apply repeat_length|]. apply Forall_forall. intros y Hy. apply repeat_spec in Hy. subst. left; auto. Qed.
Lemma conv_from_length c init u : length (conv_from c init u) = (conv_steps c u * n_out c)%nat.
Proof.
  unfold conv_from. rewrite (concat_length_const (n_out c)).
  - now rewrite map_length, seq_length.
  - apply Forall_forall. intros r Hr. apply in_map_iff in Hr. destruct Hr as (t & <- & _). now rewrite map_length, seq_length.
Qed.
Lemma conv_from_bits c init u : bits (conv_from c init u).
Proof.
  apply bits_concat. apply Forall_forall. intros r Hr. apply in_map_iff in Hr. destruct Hr as (t & <- & _).
  apply Forall_forall. intros y Hy. apply in_map_iff in Hy. destruct Hy as (j & <- & _). apply isbit_mod.
Qed.
Lemma coding_conv_walk c x zi : code_shape c -> trellis_shape c -> bits x -> x <> [] -> check_valid_conv x c = Ok tt ->
  exists y es, coding_conv x c zi = Ok y /\ trellis_entries c = Ok es /\
    trellis_walk es (repeat 0 (all_cells c)) (map (chunk_at c x) (seq 0 (conv_steps c x))) = Ok (y, state_after c (repeat 0 (all_cells c)) x (conv_steps c x)).
Proof.
  intros S T B Ne V. exists (conv_from c zero_regs x), (entries c). split; [now apply coding_conv_eq|].
  assert (V0 : check_valid_conv [] c = Ok tt) by (apply (check_any x); auto; constructor).
  split; [now apply trellis_entries_ok|]. rewrite walk_ok by (auto using zero_isstate).
  f_equal. f_equal. rewrite <- conv_from_zero_state by (now apply gen_pos). reflexivity.
Qed.
Lemma conv_from_nth c init u t j : (t < conv_steps c u)%nat -> (j < n_out c)%nat -> nth (t * n_out c + j) (conv_from c init u) 0 = conv_bit c init u t j.
Proof.
  intros Ht Hj. unfold conv_from. rewrite (concat_nth_const 0 (n_out c)); [|lia|].
  - replace ((t * n_out c + j) / n_out c)%nat with t by (apply Nat.div_unique with j; lia).
    replace ((t * n_out c + j) mod n_out c)%nat with j by (apply Nat.mod_unique with t; lia).
    rewrite nth_map_seq by auto. now rewrite nth_map_seq.
  - apply Forall_forall. intros r Hr. apply in_map_iff in Hr. destruct Hr as (q & <- & _). now rewrite map_length, seq_length.
Qed.
