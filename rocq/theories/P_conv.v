(** Proofs for the convolutional encoder and the trellis. *)
From Verif Require Import Py B_list M_aux S_aux P_gf2 P_aux M_coding M_linear S_linear P_coding P_linear M_conv S_conv.
Ltac Zify.zify_post_hook ::= Z.div_mod_to_equations.

(** * dot products and histories *)
Lemma dotZ_nil_r u : dotZ u [] = 0. Proof. destruct u; reflexivity. Qed.
Lemma dotZ_cons a u b v : dotZ (a :: u) (b :: v) = a * b + dotZ u v. Proof. reflexivity. Qed.
Lemma dotZ_firstn r m h : (length r <= m)%nat -> dotZ r (firstn m h) = dotZ r h.
Proof.
  revert m h. induction r as [|a r IH]; intros m h H; [reflexivity|]. destruct m; [simpl in H; lia|]. destruct h as [|b h]; [reflexivity|].
  cbn [firstn]. rewrite !dotZ_cons. rewrite IH by (simpl in H; lia). reflexivity.
Qed.
Lemma dotZ_zeros_r r m : dotZ r (repeat 0 m) = 0.
Proof. revert m. induction r; intros m; [reflexivity|]. destruct m; [reflexivity|]. cbn [repeat]. rewrite dotZ_cons, IHr. lia. Qed.
Lemma dotZ_app_zeros r h m : dotZ r (h ++ repeat 0 m) = dotZ r h.
Proof.
  revert h. induction r as [|a r IH]; intros h; [reflexivity|]. destruct h as [|b h]; cbn [app].
  - now rewrite dotZ_zeros_r.
  - now rewrite !dotZ_cons, IH.
Qed.
Lemma dotZ_tl0 r x h : Forall (eq 0) (tl r) -> dotZ r (x :: h) = nth 0 r 0 * x.
Proof.
  destruct r as [|a r]; cbn [tl nth]; intros H; [reflexivity|]. rewrite dotZ_cons.
  assert (E : dotZ r h = 0). { clear a x. revert h. induction H as [|b r e H IH]; intros h; [reflexivity|]. destruct h as [|y h]; [reflexivity|]. rewrite dotZ_cons, IH. lia. }
  lia.
Qed.
Lemma dotZ_mod_ext r u v : length u = length v -> (forall i, nth i u 0 mod 2 = nth i v 0 mod 2) -> dotZ r u mod 2 = dotZ r v mod 2.
Proof.
  revert u v. induction r as [|a r IH]; intros u v L H; [reflexivity|]. destruct u as [|x u], v as [|y v]; try discriminate L; [reflexivity|].
  rewrite !dotZ_cons. assert (E := H 0%nat). cbn [nth] in E. assert (E2 := IH u v (eq_add_S _ _ L) (fun i => H (S i))).
  rewrite Z.add_mod, (Z.add_mod (a * y)), E2 by lia. rewrite Z.mul_mod, (Z.mul_mod a y), E by lia. reflexivity.
Qed.

Lemma reg_hist_length f init x t : length (reg_hist f init x t) = (t + length init)%nat.
Proof. induction t; simpl; auto. Qed.
Lemma reg_hist_bits f init x t : bits init -> bits (reg_hist f init x t).
Proof. intros B. induction t; [auto|]. cbn [reg_hist]. constructor; auto. apply isbit_mod. Qed.
Lemma reg_hist_ext f init x y t : (forall s, (s < t)%nat -> x s = y s) -> reg_hist f init x t = reg_hist f init y t.
Proof. intros H. induction t; [reflexivity|]. cbn [reg_hist]. rewrite IHt by (intros; apply H; lia). rewrite H by lia. reflexivity. Qed.
(** only the first cells of the initial content matter, and zeros do not matter *)
Lemma reg_hist_app_zeros f m x t : reg_hist f (repeat 0 m) x t = reg_hist f [] x t ++ repeat 0 m.
Proof. induction t; [reflexivity|]. cbn [reg_hist]. rewrite IHt, dotZ_app_zeros. reflexivity. Qed.

(** * The filter recursion modulo 2 is the feedback shift register *)
Fixpoint hx (x : nat -> Z) (t : nat) : list Z := match t with O => [] | S t' => x t' :: hx x t' end.
Fixpoint hy (b a : list Z) (x : nat -> Z) (t : nat) : list Z :=
  match t with O => [] | S t' => (dotZ b (hx x (S t')) - dotZ a (hy b a x t')) :: hy b a x t' end.
Definition ly (b a : list Z) (x : nat -> Z) (t : nat) : Z := dotZ b (hx x (S t)) - dotZ a (hy b a x t).
Lemma lf_run_seq b a x n : forall t, lf_run b a (hx x t) (hy b a x t) (map x (seq t n)) = map (ly b a x) (seq t n).
Proof.
  induction n; intros t; [reflexivity|]. cbn [seq map lf_run]. f_equal. rewrite <- IHn. reflexivity.
Qed.
(** past outputs of the register form *)
Fixpoint hp (b a : list Z) (x : nat -> Z) (t : nat) : list Z :=
  match t with O => [] | S t' => dotZ b (reg_hist a [] x (S t')) :: hp b a x t' end.
Lemma hp_cons b0 b a x t : hp (b0 :: b) a x (S t) =
  map2 Z.add (map (Z.mul b0) (reg_hist a [] x (S t))) (hp b a x t ++ [0]).
Proof.
  induction t.
  - cbn [hp reg_hist map map2 app]. rewrite dotZ_cons, !dotZ_nil_r. reflexivity.
  - change (hp (b0 :: b) a x (S (S t))) with (dotZ (b0 :: b) (reg_hist a [] x (S (S t))) :: hp (b0 :: b) a x (S t)).
    rewrite IHt. change (reg_hist a [] x (S (S t))) with ((x (S t) + dotZ a (reg_hist a [] x (S t))) mod 2 :: reg_hist a [] x (S t)).
    cbn [map]. rewrite dotZ_cons. reflexivity.
Qed.
Lemma dotZ_map2_add r u v : length u = length v -> dotZ r (map2 Z.add u v) = dotZ r u + dotZ r v.
Proof.
  revert u v. induction r as [|a r IH]; intros u v L; [reflexivity|]. destruct u as [|x u], v as [|y v]; try discriminate L; [reflexivity|].
  cbn [map2]. rewrite !dotZ_cons, IH by (simpl in L; lia). lia.
Qed.
Lemma dotZ_scale r k u : dotZ r (map (Z.mul k) u) = k * dotZ r u.
Proof.
  revert u. induction r as [|a r IH]; intros u; [cbn; lia|]. destruct u as [|x u]; [cbn; lia|].
  cbn [map]. rewrite !dotZ_cons, IH. lia.
Qed.
Lemma hp_length b a x t : length (hp b a x t) = t. Proof. induction t; simpl; auto. Qed.
Lemma hx_length x t : length (hx x t) = t. Proof. induction t; simpl; auto. Qed.
Lemma hy_length b a x t : length (hy b a x t) = t. Proof. induction t; simpl; auto. Qed.
Lemma dotZ_app_zero1 r h : dotZ r (h ++ [0]) = dotZ r h. Proof. apply (dotZ_app_zeros r h 1). Qed.
Lemma hp_eqn b a x : forall t, dotZ b (reg_hist a [] x (S t)) mod 2 = (dotZ b (hx x (S t)) + dotZ a (hp b a x t)) mod 2.
Proof.
  induction b as [|b0 b IH]; intros t.
  - assert (E : dotZ a (hp [] a x t) = 0).
    { assert (hp [] a x t = repeat 0 t) as -> by (induction t; [reflexivity|]; cbn [hp repeat]; now rewrite IHt). apply dotZ_zeros_r. }
    rewrite E. reflexivity.
  - change (reg_hist a [] x (S t)) with ((x t + dotZ a (reg_hist a [] x t)) mod 2 :: reg_hist a [] x t).
    change (hx x (S t)) with (x t :: hx x t). rewrite !dotZ_cons. destruct t as [|t].
    + cbn [hp reg_hist hx]. rewrite !dotZ_nil_r.
      rewrite Z.add_0_r, Z.mul_mod_idemp_r by lia. f_equal; lia.
    + rewrite hp_cons. rewrite dotZ_map2_add by (rewrite map_length, app_length, reg_hist_length, hp_length; simpl; lia).
      rewrite dotZ_scale, dotZ_app_zero1.
      assert (I := IH t). set (A := dotZ a (reg_hist a [] x (S t))) in *. set (B := dotZ b (reg_hist a [] x (S t))) in *.
      set (C := dotZ b (hx x (S t))) in *. set (D := dotZ a (hp b a x t)) in *.
      rewrite Z.add_mod, Z.mul_mod_idemp_r, <- Z.add_mod by lia.
      rewrite Z.add_mod, I, <- Z.add_mod by lia. f_equal; lia.
Qed.
Lemma ly_mod b a x t : ly b a x t mod 2 = dotZ b (reg_hist a [] x (S t)) mod 2.
Proof.
  assert (G : forall t, (forall i, nth i (hy b a x t) 0 mod 2 = nth i (hp b a x t) 0 mod 2)).
  { induction t0 as [|t0 IH]; intros i; [reflexivity|]. destruct i as [|i]; [|apply IH].
    cbn [hy hp nth]. rewrite hp_eqn. rewrite Zminus_mod, (dotZ_mod_ext a _ (hp b a x t0)) by (lia || now rewrite hy_length, hp_length || auto).
    rewrite <- Zminus_mod. lia. }
  rewrite hp_eqn. unfold ly. rewrite Zminus_mod, (dotZ_mod_ext a _ (hp b a x t)) by (lia || now rewrite hy_length, hp_length || auto).
  rewrite <- Zminus_mod. lia.
Qed.
Lemma lf_run_mod b a l : mod2 (lf_run b a [] [] l) = map (fun t => dotZ b (reg_hist a [] (fun i => nth i l 0) (S t)) mod 2) (seq 0 (length l)).
Proof.
  assert (E : l = map (fun i => nth i l 0) (seq 0 (length l))).
  { apply (nth_ext_def 0); [now rewrite map_length, seq_length|]. intros i Hi. now rewrite nth_map_seq. }
  assert (R := lf_run_seq b a (fun i => nth i l 0) (length l) 0). cbn [hx hy] in R. rewrite <- E in R. rewrite R. unfold mod2. rewrite map_map. apply map_ext.
  intros t. apply ly_mod.
Qed.
Lemma lf_run_length b a l : forall xs ys, length (lf_run b a xs ys l) = length l.
Proof. induction l; intros; simpl; auto. Qed.

(** * The validity check *)
Lemma all_ok_iff {A} (f : A -> res unit) l : all_ok (map f l) = Ok tt <-> forall a, In a l -> f a = Ok tt.
Proof.
  induction l as [|a l IH]; cbn [map all_ok].
  - split; [intros _ b []|auto].
  - split.
    + intros H. destruct (f a) as [[]|e] eqn:E; [|discriminate H]. cbn [bind] in H. intros b [<-|Hb]; [auto|]. apply IH; auto.
    + intros H. rewrite H by (left; auto). cbn [bind]. apply IH. intros b Hb. apply H. right; auto.
Qed.
Lemma check_fb_true c i j x : check_valid_conv x c = Ok tt -> code_shape c -> (i < length (gen c))%nat -> (j < n_out c)%nat ->
  uf_get c i j = 1 -> fdb c <> None -> fb_get c i <> None.
Proof.
  intros H S Hi Hj U F. unfold check_valid_conv in H. destruct (check_binary x) as [[]|]; [|discriminate H]. cbn [bind] in H.
  rewrite all_ok_iff in H. specialize (H i (proj2 (in_seq _ _ _) (conj (Nat.le_0_l _) Hi))). cbn beta zeta in H.
  destruct (check_binary (concat (nth i (gen c) []))) as [[]|]; [|discriminate H]. cbn [bind] in H.
  destruct (fdb c) as [fl|] eqn:E; [|congruence]. destruct (ufb c) as [m|] eqn:E2; [|discriminate H].
  destruct (negb _ || negb _)%bool; [discriminate H|].
  destruct (all_ok (map _ fl)) as [[]|]; [|discriminate H]. cbn [bind] in H. rewrite all_ok_iff in H.
  specialize (H j). rewrite in_seq, (cs_rows c S) in H by auto. specialize (H (conj (Nat.le_0_l _) Hj)). cbn beta in H.
  unfold uf_get in U. rewrite E2 in U. rewrite U in H. cbn [Z.eqb Pos.eqb andb] in H. intros N. rewrite N in H. discriminate H.
Qed.
Lemma sum_nonpos_zero l : bits l -> sumZ l <= 0 -> Forall (eq 0) l.
Proof.
  induction 1 as [|a l Ha Hl IH]; intros H; [constructor|]. change (a + sumZ l <= 0) in H.
  assert (0 <= sumZ l) by (clear - Hl; induction Hl as [|b l Hb Hl IH]; [reflexivity|]; change (0 <= b + sumZ l); destruct Hb; lia).
  constructor; [destruct Ha; lia|]. apply IH. destruct Ha; lia.
Qed.
Lemma bits_tl l : bits l -> bits (tl l). Proof. destruct 1; [constructor|auto]. Qed.
Lemma check_fb_false c i j x f : check_valid_conv x c = Ok tt -> code_shape c -> (i < length (gen c))%nat -> (j < n_out c)%nat ->
  uf_get c i j = 0 -> fb_get c i = Some f -> Forall (eq 0) (tl (poly c i j)).
Proof.
  intros H S Hi Hj U F. unfold check_valid_conv in H. destruct (check_binary x) as [[]|]; [|discriminate H]. cbn [bind] in H.
  rewrite all_ok_iff in H. specialize (H i (proj2 (in_seq _ _ _) (conj (Nat.le_0_l _) Hi))). cbn beta zeta in H.
  destruct (check_binary (concat (nth i (gen c) []))) as [[]|]; [|discriminate H]. cbn [bind] in H.
  destruct (fdb c) as [fl|] eqn:E; [|unfold fb_get in F; rewrite E in F; discriminate F].
  destruct (ufb c) as [m|] eqn:E2; [|discriminate H].
  destruct (negb _ || negb _)%bool; [discriminate H|].
  destruct (all_ok (map _ fl)) as [[]|]; [|discriminate H]. cbn [bind] in H. rewrite all_ok_iff in H.
  specialize (H j). rewrite in_seq, (cs_rows c S) in H by auto. specialize (H (conj (Nat.le_0_l _) Hj)). cbn beta in H.
  unfold uf_get in U. rewrite E2 in U. rewrite U, F in H. cbn [Z.eqb Pos.eqb andb] in H.
  assert (B : bits (poly c i j)) by apply (cs_cols c S i j Hi Hj). fold (poly c i j) in H.
  destruct (poly c i j) as [|a [|b r]] eqn:P; [constructor..|]. cbn [tl].
  apply sum_nonpos_zero; [inversion B; auto|]. cbn [length tl Nat.ltb Nat.leb andb] in H.
  destruct (0 <? sumZ (b :: r)) eqn:G; [discriminate H|]. apply Z.ltb_ge in G. lia.
Qed.
Lemma uf_bit c i j : code_shape c -> (i < length (gen c))%nat -> (j < n_out c)%nat -> isbit (uf_get c i j).
Proof.
  intros S Hi Hj. unfold uf_get. destruct (ufb c) as [m|] eqn:E; [|left; auto]. destruct (cs_uf c S m E) as [L F].
  unfold get2. assert (X := Forall_nth_lt _ _ i [] F). cbn beta in X. destruct X as [Lr B]; [lia|]. apply bits_nth; auto.
Qed.
Lemma fb_form c i f : code_shape c -> fb_get c i = Some f -> exists f1, f = 1 :: f1 /\ bits f.
Proof.
  intros S F. unfold fb_get in F. destruct (fdb c) as [fl|] eqn:E; [|discriminate F]. destruct (cs_fb c S fl E) as [L A].
  destruct (lt_dec i (length fl)) as [Hi|Hi].
  - assert (X := Forall_nth_lt _ _ i None A Hi). cbn beta in X. destruct (X f F) as [B N].
    destruct f as [|a f1]; [discriminate N|]. cbn [nth] in N. subst. eauto.
  - rewrite nth_overflow in F by lia. discriminate F.
Qed.
(** * One contribution *)
Lemma forallb_zero l : forallb (Z.eqb 0) l = true -> Forall (eq 0) l.
Proof. rewrite forallb_forall, Forall_forall. intros H y Hy. now apply Z.eqb_eq, H. Qed.
Lemma dotZ_zero_l r h : Forall (eq 0) r -> dotZ r h = 0.
Proof. intros H. revert h. induction H as [|a r e H IH]; intros h; [reflexivity|]. destruct h; [reflexivity|]. rewrite dotZ_cons, IH. lia. Qed.
Lemma contrib_ok c x l i j : code_shape c -> check_valid_conv x c = Ok tt -> (i < length (gen c))%nat -> (j < n_out c)%nat ->
  bits l -> l <> [] ->
  exists r, conv_contrib c l i j = Ok r /\ length r = length l /\ forall t, (t < length l)%nat -> nth t r 0 mod 2 = dotZ (poly c i j) (reg_hist (out_taps c i j) [] (fun s => nth s l 0) (S t)) mod 2.
Proof.
  intros S V Hi Hj B Ne. unfold conv_contrib. fold (poly c i j).
  assert (Bp : bits (poly c i j)) by apply (cs_cols c S i j Hi Hj).
  destruct (forallb (Z.eqb 0) (poly c i j)) eqn:Z0.
  { apply forallb_zero in Z0. exists (repeat 0 (length l)). split; auto. split; [apply repeat_length|]. intros t Ht.
    rewrite (repeat_nth 0) by auto. now rewrite dotZ_zero_l. }
  set (iir := fb_get c i). assert (Eiir : fb_get c i = iir) by reflexivity. clearbody iir.
  assert (UB := uf_bit c i j S Hi Hj).
  destruct (_ && (1 <? length (poly c i j))%nat && (0 <? sumZ (tl (poly c i j))) && (uf_get c i j =? 0))%bool eqn:C1.
  { exfalso. rewrite !andb_true_iff in C1. destruct C1 as [[[C1 C2] C3] C4]. apply Z.eqb_eq in C4. apply Z.ltb_lt in C3.
    destruct iir as [f|]; [|discriminate C1]. assert (X := check_fb_false c i j x f V S Hi Hj C4 Eiir).
    assert (sumZ (tl (poly c i j)) = 0); [|lia]. clear - X. induction X as [|a r e X IH]; [reflexivity|]. change (a + sumZ r = 0). lia. }
  destruct ((1 <? length (poly c i j))%nat && (nth 0 (poly c i j) 0 =? 1) && (sumZ (tl (poly c i j)) =? 0) && (uf_get c i j =? 0))%bool eqn:C2.
  { rewrite !andb_true_iff in C2. destruct C2 as [[[D1 D2] D3] D4]. apply Nat.ltb_lt in D1. apply Z.eqb_eq in D2, D3, D4.
    exists l. split; auto. split; auto. intros t Ht. cbn [reg_hist]. rewrite dotZ_tl0 by (apply sum_nonpos_zero; [now apply bits_tl|lia]).
    rewrite D2, Z.mul_1_l, Z.mod_mod by lia. unfold out_taps. rewrite D4. cbn [Z.eqb andb].
    replace (length (poly c i j) =? 1)%nat with false by (symmetry; apply Nat.eqb_neq; lia). cbn [negb dotZ]. f_equal; lia. }
  assert (OT : iir <> None -> out_taps c i j = fb_taps c i \/ (1 < length (poly c i j))%nat /\ uf_get c i j = 0).
  { intros _. unfold out_taps. destruct (uf_get c i j =? 0) eqn:U; cbn [andb]; [|left; auto].
    destruct (length (poly c i j) =? 1)%nat eqn:L1; cbn [negb]; [left; auto|]. right. apply Z.eqb_eq in U. apply Nat.eqb_neq in L1. split; auto.
    destruct (poly c i j); [discriminate Z0|]. simpl in *; lia. }
  destruct iir as [f|].
  - destruct (fb_form c i f S Eiir) as (f1 & -> & Bf).
    assert (OT2 : out_taps c i j = f1).
    { assert (FT : fb_taps c i = f1) by (unfold fb_taps; now rewrite Eiir). destruct OT as [-> | [L1 U]]; [discriminate|auto|]. exfalso.
      assert (T0 := check_fb_false c i j x _ V S Hi Hj U Eiir).
      assert (S0 : sumZ (tl (poly c i j)) = 0) by (clear - T0; induction T0 as [|a r e X IH]; [reflexivity|]; change (a + sumZ r = 0); lia).
      rewrite S0, U in C2. replace (1 <? length (poly c i j))%nat with true in C2 by (symmetry; apply Nat.ltb_lt; auto).
      destruct (poly c i j) as [|a r]; [discriminate Z0|]. cbn [nth tl Z.eqb andb] in *. inversion Bp as [|? ? [Ha|Ha] ?]; subst.
      - cbn [forallb Z.eqb andb] in Z0. assert (forallb (Z.eqb 0) r = true) by (apply forallb_forall; rewrite Forall_forall in T0; intros y Hy; apply Z.eqb_eq; auto). congruence.
      - discriminate C2. }
    cbn [lfilterZ]. rewrite Z.eqb_refl. eexists. split; [reflexivity|]. split; [apply lf_run_length|]. intros t Ht.
    rewrite OT2. assert (M := lf_run_mod (poly c i j) f1 l). apply (f_equal (fun v => nth t v 0)) in M.
    rewrite nth_map_seq in M by auto. unfold mod2 in M. rewrite (map_nth_lt _ _ _ 0) in M by (now rewrite lf_run_length). exact M.
  - assert (OT2 : out_taps c i j = []) by (unfold out_taps, fb_taps; rewrite Eiir; match goal with |- (if ?b then _ else _) = _ => destruct b end; reflexivity).
    unfold lfilter_fir. destruct l as [|v l]; [congruence|]. eexists. split; [reflexivity|]. split; [apply lf_run_length|]. intros t Ht.
    rewrite OT2. assert (M := lf_run_mod (poly c i j) [] (v :: l)). apply (f_equal (fun v => nth t v 0)) in M.
    rewrite nth_map_seq in M by auto. unfold mod2 in M. rewrite (map_nth_lt _ _ _ 0) in M by (now rewrite lf_run_length). exact M.
Qed.
(** * The encoder *)
Lemma fold_addv ls : forall acc m, length acc = m -> Forall (fun l => length l = m) ls ->
  length (fold_left addv ls acc) = m /\ forall t, (t < m)%nat -> nth t (fold_left addv ls acc) 0 = nth t acc 0 + sumZ (map (fun l => nth t l 0) ls).
Proof.
  induction ls as [|l ls IH]; intros acc m La F; cbn [fold_left].
  - split; auto. intros t Ht. cbn [map]. unfold sumZ. cbn [fold_right]. lia.
  - inversion F as [|? ? Ll F']; subst. destruct (IH (addv acc l) (length acc)) as [A B]; auto.
    { unfold addv. rewrite map2_length. lia. }
    split; auto. intros t Ht. rewrite B by auto. unfold addv. rewrite (map2_nth _ _ _ _ 0 0) by lia.
    cbn [map]. change (sumZ (nth t l 0 :: map (fun l0 => nth t l0 0) ls)) with (nth t l 0 + sumZ (map (fun l0 => nth t l0 0) ls)). lia.
Qed.
Lemma pad_len2 k len : (0 < k)%nat ->
  ((if negb (len mod k =? 0) then len + (k - len mod k) else len) = (len + k - 1) / k * k)%nat.
Proof.
  intros H. assert (D := Nat.div_mod len k ltac:(lia)). assert (M := Nat.mod_upper_bound len k ltac:(lia)).
  destruct (Nat.eqb_spec (len mod k) 0) as [e|ne]; cbn [negb].
  - assert (E : ((len + k - 1) / k = len / k)%nat); [|rewrite E; nia].
    symmetry. apply Nat.div_unique with (k - 1)%nat; [lia|]. nia.
  - assert (E : ((len + k - 1) / k = len / k + 1)%nat); [|rewrite E; nia].
    symmetry. apply Nat.div_unique with (len mod k - 1)%nat; nia.
Qed.
Lemma sumZ_mod {A} (f g : A -> Z) l : (forall a, In a l -> f a mod 2 = g a mod 2) -> sumZ (map f l) mod 2 = sumZ (map g l) mod 2.
Proof.
  induction l as [|a l IH]; intros H; [reflexivity|]. cbn [map].
  change ((f a + sumZ (map f l)) mod 2 = (g a + sumZ (map g l)) mod 2).
  rewrite Z.add_mod, (Z.add_mod (g a)), IH, H by (lia || (left; auto) || (intros; apply H; right; auto)). reflexivity.
Qed.
Lemma coding_conv_eq c x zi : code_shape c -> bits x -> x <> [] -> check_valid_conv x c = Ok tt ->
  coding_conv x c zi = Ok (conv_from c zero_regs x).
Proof.
  intros S B Ne V. unfold coding_conv. rewrite V. cbn [bind]. assert (Gn := cs_in c S).
  set (k := length (gen c)). assert (Hk : (0 < k)%nat) by (unfold k; destruct (gen c); [congruence|simpl; lia]).
  assert (EG : forall (A : Type) (a b : A), match gen c with [] => a | _ :: _ => b end = b) by (intros; destruct (gen c); congruence).
  rewrite EG. clear EG.
  set (xp := if negb (length x mod k =? 0)%nat then x ++ repeat 0 (k - length x mod k) else x).
  assert (Lx : length xp = (conv_steps c x * k)%nat).
  { unfold xp, conv_steps. fold k. rewrite <- pad_len2 by auto. destruct (negb _); [|reflexivity]. now rewrite app_length, repeat_length. }
  assert (Nx : forall i, nth i xp 0 = nth i x 0) by (intros i; unfold xp; destruct (negb _); [apply nth_app_zeros|reflexivity]).
  assert (Bx : bits xp).
  { unfold xp. destruct (negb _); auto. apply bits_app. split; auto. apply Forall_forall. intros y Hy. apply repeat_spec in Hy. subst. left; auto. }
  clearbody xp. set (T := conv_steps c x) in *.
  assert (HT : (0 < T)%nat).
  { unfold T, conv_steps. fold k. destruct x; [congruence|]. apply Nat.div_str_pos. simpl. lia. }
  unfold reshape_rows. replace (length xp mod k =? 0)%nat with true by (symmetry; apply Nat.eqb_eq; rewrite Lx; now apply Nat.mod_mul; lia).
  replace (k =? 0)%nat with false by (symmetry; apply Nat.eqb_neq; lia). cbn [bind negb andb orb].
  set (rows := chunks k xp).
  assert (Lr : length rows = T) by (unfold rows; rewrite chunks_count, Lx; apply Nat.div_mul; lia).
  assert (In_ : forall i, (i < k)%nat -> map (fun r => nth i r 0) rows = map (in_bit c x i) (seq 0 T)).
  { intros i Hi. unfold rows. rewrite chunks_blocks by auto. rewrite Lx, Nat.div_mul by lia. rewrite map_map. apply map_ext. intros b.
    rewrite block_nth by auto. apply Nx. }
  assert (Hout : map_res (fun jj => contribs <- map_res (fun ii => conv_contrib c (map (fun r => nth ii r 0) rows) ii jj) (seq 0 k) ;;
      Ok (mod2 (fold_left addv contribs (repeat 0 (length rows))))) (seq 0 (n_out c)) =
    Ok (map (fun j => map (fun t => conv_bit c zero_regs x t j) (seq 0 T)) (seq 0 (n_out c)))).
  { apply map_res_ok. intros j Hj. apply in_seq in Hj.
    destruct (map_res_seq (fun ii => conv_contrib c (map (fun r => nth ii r 0) rows) ii j)
      (fun i r => length r = T /\ forall t, (t < T)%nat -> nth t r 0 mod 2 =
         dotZ (poly c i j) (reg_hist (out_taps c i j) [] (in_bit c x i) (Datatypes.S t)) mod 2) (seq 0 k)) as (cs & E1 & E2 & E3).
    - intros i Hi. apply in_seq in Hi. rewrite In_ by lia.
      destruct (contrib_ok c x (map (in_bit c x i) (seq 0 T)) i j S V) as (r & R1 & R2 & R3); try lia.
      + apply Forall_forall. intros y Hy. apply in_map_iff in Hy. destruct Hy as (s & <- & _). apply bits_nth; auto.
      + destruct T; [lia|discriminate].
      + rewrite map_length, seq_length in *. exists r. split; auto. split; auto. intros t Ht. rewrite R3 by auto. f_equal. f_equal.
        apply reg_hist_ext. intros s Hs. rewrite nth_map_seq by lia. reflexivity.
    - rewrite E1. cbn [bind]. f_equal. rewrite seq_length in E2, E3.
      destruct (fold_addv cs (repeat 0 (length rows)) T) as [F1 F2].
      + now rewrite repeat_length.
      + apply Forall_forall. intros r Hr. apply (In_nth _ _ []) in Hr. destruct Hr as (i & Hi & <-). apply (E3 i 0%nat []). lia.
      + apply (nth_ext_def 0); [unfold mod2; now rewrite !map_length, seq_length, F1|]. intros t Ht. unfold mod2 in Ht. rewrite map_length, F1 in Ht.
        unfold mod2. rewrite (map_nth_lt _ _ _ 0) by lia. rewrite F2, nth_map_seq by auto. cbn [Nat.add]. unfold conv_bit. fold k.
        rewrite (repeat_nth 0) by lia. rewrite Z.add_0_l.
        assert (Ecs : cs = map (fun i => nth i cs []) (seq 0 k)).
        { apply (nth_ext_def []); [now rewrite map_length, seq_length|]. intros i Hi. rewrite nth_map_seq by lia. reflexivity. }
        rewrite Ecs, map_map. apply sumZ_mod. intros i Hi. apply in_seq in Hi.
        destruct (E3 i 0%nat [] ltac:(lia)) as [_ X]. rewrite X by auto. rewrite seq_nth by lia. reflexivity. }
  rewrite Hout. cbn [bind]. f_equal. unfold conv_from. fold T. rewrite Lr. f_equal. apply map_ext_in. intros t Ht. apply in_seq in Ht.
  rewrite map_map. apply map_ext. intros j. rewrite nth_map_seq by lia. reflexivity.
Qed.
