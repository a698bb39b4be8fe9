(** Proofs about auxiliary.buffer. *)
From Verif Require Import Py B_list M_aux P_prbs S_aux.
From Coq Require Import Permutation.
Ltac Zify.zify_post_hook ::= Z.div_mod_to_equations.

Lemma nth_last_eq {A} (d : A) (m : list A) : nth (length m - 1) m d = last m d.
Proof.
  induction m as [|a [|b m] IH]; auto. change (last (a :: b :: m) d) with (last (b :: m) d). rewrite <- IH.
  cbn [length]. replace (S (S (length m)) - 1)%nat with (S (S (length m) - 1)) by lia. reflexivity.
Qed.
Section Buf.
  Context {A : Type} (zero : A) (eqb : A -> A -> bool).

  Definition frame (d len : nat) (s : list A) (start : nat) : list A :=
    map (fun j => delayed zero d s (start + j)) (seq 0 len).

  Lemma nth_full d (s : list A) len i :
    nth i (repeat zero d ++ s ++ repeat zero len) zero = delayed zero d s i.
  Proof.
    unfold delayed. destruct (i <? d)%nat eqn:E.
    - apply Nat.ltb_lt in E. rewrite app_nth1 by (rewrite repeat_length; lia). now apply repeat_nth.
    - apply Nat.ltb_ge in E. rewrite app_nth2 by (rewrite repeat_length; lia). rewrite repeat_length.
      destruct (Nat.lt_ge_cases (i - d) (length s)).
      + now rewrite app_nth1 by lia.
      + rewrite app_nth2 by lia. rewrite (nth_overflow s) by lia.
        destruct (Nat.lt_ge_cases (i - d - length s) len).
        * now apply repeat_nth.
        * apply nth_overflow. rewrite repeat_length. lia.
  Qed.
  Lemma rev_repeat (x : A) n : rev (repeat x n) = repeat x n.
  Proof.
    induction n; auto. simpl. rewrite IHn. clear. induction n; auto. simpl. now rewrite IHn.
  Qed.
  Lemma hankel_full d (s : list A) len :
    let full := repeat zero d ++ s ++ repeat zero len in
    hankel zero full (slice_to (rev full) (Z.of_nat len)) =
    map (frame d len s) (seq 0 (d + length s + len)).
  Proof.
    intros full.
    assert (Er : slice_to (rev full) (Z.of_nat len) = repeat zero len).
    { rewrite slice_to_nat. unfold full. rewrite app_assoc, rev_app_distr, rev_repeat.
      rewrite firstn_app, repeat_length, Nat.sub_diag. simpl. rewrite app_nil_r.
      apply firstn_all2. rewrite repeat_length. lia. }
    assert (El : length full = (d + length s + len)%nat).
    { unfold full. rewrite !app_length, !repeat_length. lia. }
    unfold hankel. rewrite Er, El, repeat_length. apply map_ext_in. intros i Hi. unfold frame.
    apply map_ext_in. intros j Hj. apply in_seq in Hi, Hj.
    destruct (i + j <? d + length s + len)%nat eqn:E.
    - apply nth_full.
    - apply Nat.ltb_ge in E. unfold delayed. replace (i + j <? d)%nat with false by (symmetry; apply Nat.ltb_ge; lia).
      rewrite (nth_overflow s) by lia.
      destruct (Nat.lt_ge_cases (i + j - (d + length s + len) + 1) len).
      + now apply repeat_nth.
      + apply nth_overflow. rewrite repeat_length. lia.
  Qed.

  Lemma count_rows (st T full : Z) (K K' : nat) : 0 < st -> T <= full -> 0 <= full ->
    K = Z.to_nat (- ((0 - full) / st)) -> K' = ceil_div T st ->
    (K' <= K)%nat /\
    length (filter (fun v => existsb (Z.eqb v) (map (fun k => 0 + Z.of_nat k * st) (seq 0 K)))
       (map (fun k => T + Z.of_nat k * 1) (seq 0 (Z.to_nat (- ((T - full) / 1)))))) = (K - K')%nat.
  Proof.
    intros Hs HT Hf HK HK'.
    assert (BK : forall k, (k < K)%nat <-> Z.of_nat k * st < full).
    { intros k. rewrite HK.
      assert (E := Z.div_mod (0 - full) st ltac:(lia)). assert (M := Z.mod_pos_bound (0 - full) st Hs).
      set (q := (0 - full) / st) in *. set (r := (0 - full) mod st) in *. split; intros; nia. }
    assert (BK' : forall k, (k < K')%nat <-> Z.of_nat k * st < T).
    { intros k. rewrite HK'. unfold ceil_div.
      assert (E := Z.div_mod (T + st - 1) st ltac:(lia)). assert (M := Z.mod_pos_bound (T + st - 1) st Hs).
      set (q := (T + st - 1) / st) in *. set (r := (T + st - 1) mod st) in *. split; intros; nia. }
    assert (HKK : (K' <= K)%nat).
    { destruct (Nat.le_gt_cases K' K); auto. specialize (BK' K). specialize (BK K). lia. }
    split; auto.
    transitivity (length (map (fun k => Z.of_nat k * st) (seq K' (K - K')))); [|now rewrite map_length, seq_length].
    apply Permutation_length. apply NoDup_Permutation.
    - apply NoDup_filter. apply NoDup_map_inj; [intros; lia|apply seq_NoDup].
    - apply NoDup_map_inj; [intros; nia|apply seq_NoDup].
    - intros v. rewrite filter_In, existsb_exists, !in_map_iff. split.
      + intros [[j [Hj Hjl]] [w [Hw E]]]. apply Z.eqb_eq in E. subst w.
        apply in_map_iff in Hw. destruct Hw as [k [Hk Hkl]]. apply in_seq in Hkl, Hjl.
        exists k. split; [lia|]. apply in_seq. assert (~ (k < K')%nat) by (rewrite BK'; lia). lia.
      + intros [k [Hk Hkl]]. apply in_seq in Hkl.
        assert (~ (k < K')%nat) by lia. rewrite BK' in H.
        assert (k < K)%nat by lia. assert (H1 := H0). rewrite BK in H1. split.
        * exists (Z.to_nat (v - T)). split; [lia|]. apply in_seq. rewrite Z.div_1_r. lia.
        * exists v. split; [|apply Z.eqb_refl]. apply in_map_iff. exists k. split; [lia|]. apply in_seq. lia.
  Qed.

  Lemma buffer_noclip (s : list A) (len d : nat) (ov : Z) : s <> [] -> (0 < len)%nat -> ov < Z.of_nat len ->
    buffer zero eqb s (Z.of_nat len) ov (Z.of_nat d) false =
    Ok (map (fun k => frame d len s (k * Z.to_nat (Z.of_nat len - ov)))
            (seq 0 (ceil_div (Z.of_nat d + Z.of_nat (length s) - Z.max ov 0) (Z.of_nat len - ov)))).
  Proof.
    intros Hs Hlen Hov. unfold buffer.
    set (st := Z.of_nat len - ov). set (full := Z.of_nat d + Z.of_nat (length s) + Z.of_nat len).
    set (T := full - Z.of_nat len - Z.max ov 0).
    assert (Hst : 0 < st) by (unfold st; lia).
    assert (Efull : (if 0 <? Z.of_nat d then np_zeros zero (Z.of_nat d) ++ s ++ np_zeros zero (Z.of_nat len)
                     else s ++ np_zeros zero (Z.of_nat len)) = repeat zero d ++ s ++ repeat zero len).
    { unfold np_zeros. rewrite !Nat2Z.id. destruct d; reflexivity. }
    rewrite Efull. rewrite hankel_full.
    set (hm := map (frame d len s) (seq 0 (d + length s + len))).
    unfold arange. replace (st =? 0) with false by (symmetry; apply Z.eqb_neq; lia). cbn [bind].
    set (K := Z.to_nat (- ((0 - full) / st))).
    set (rows := map (fun k => 0 + Z.of_nat k * st) (seq 0 K)).
    assert (BK : forall k, (k < K)%nat -> Z.of_nat k * st < full).
    { intros k Hk. unfold K in Hk.
      assert (E := Z.div_mod (0 - full) st ltac:(lia)). assert (M := Z.mod_pos_bound (0 - full) st Hst).
      set (q := (0 - full) / st) in *. set (r := (0 - full) mod st) in *. nia. }
    assert (Em : np_take hm rows = Ok (map (fun k => frame d len s (k * Z.to_nat st)) (seq 0 K))).
    { unfold np_take, rows. rewrite (map_res_ok _ (fun v => frame d len s (Z.to_nat v))).
      - rewrite map_map. f_equal. apply map_ext. intros k. f_equal. nia.
      - intros v Hv. apply in_map_iff in Hv. destruct Hv as [k [<- Hk]]. apply in_seq in Hk.
        assert (Z.of_nat k * st < full) by (apply BK; lia).
        rewrite (np_get_Z _ _ []) by (unfold hm; rewrite map_length, seq_length; unfold full in *; nia).
        f_equal. unfold hm. rewrite nth_map_seq by (unfold full in *; nia). reflexivity. }
    assert (Esm : forall (B : Type) (a b : B), match s with [] => a | _ :: _ => b end = b) by (intros; destruct s; [congruence|reflexivity]).
    rewrite Esm. rewrite Em. cbn [bind]. replace (1 =? 0) with false by reflexivity. cbn [bind].
    destruct (count_rows st T full K (ceil_div T st)) as [HKK Hcount]; auto; try (unfold T, full; lia).
    fold rows in Hcount. rewrite Hcount.
    assert (ET : T = Z.of_nat d + Z.of_nat (length s) - Z.max ov 0) by (unfold T, full; lia).
    rewrite <- ET. set (K' := ceil_div T st) in *.
    assert (Eslice : (if (0 <? K - K')%nat then slice_to (map (fun k => frame d len s (k * Z.to_nat st)) (seq 0 K)) (-1 * Z.of_nat (K - K'))
       else map (fun k => frame d len s (k * Z.to_nat st)) (seq 0 K)) = map (fun k => frame d len s (k * Z.to_nat st)) (seq 0 K')).
    { destruct (0 <? K - K')%nat eqn:E.
      - apply Nat.ltb_lt in E. rewrite slice_to_neg by lia. rewrite map_length, seq_length.
        replace (K - (K - K'))%nat with K' by lia. rewrite firstn_map. f_equal.
        replace K with (K' + (K - K'))%nat by lia. rewrite seq_app, firstn_app, seq_length, Nat.sub_diag.
        simpl. rewrite app_nil_r. apply firstn_all2. rewrite seq_length. lia.
      - apply Nat.ltb_ge in E. now replace K with K' by lia. }
    rewrite Eslice. reflexivity.
  Qed.

  Lemma buffer_spec (s : list A) (len d : nat) (ov : Z) : s <> [] -> (0 < len)%nat -> ov < Z.of_nat len ->
    exists m, buffer zero eqb s (Z.of_nat len) ov (Z.of_nat d) false = Ok m /\
      length m = ceil_div (Z.of_nat d + Z.of_nat (length s) - Z.max ov 0) (Z.of_nat len - ov) /\
      Forall (fun r => length r = len) m /\
      forall r c, (r < length m)%nat -> (c < len)%nat ->
        nth c (nth r m []) zero = delayed zero d s (r * Z.to_nat (Z.of_nat len - ov) + c).
  Proof.
    intros Hs Hl Ho. eexists. split; [now apply buffer_noclip|]. rewrite map_length, seq_length. split; auto. split.
    - apply Forall_forall. intros r Hr. apply in_map_iff in Hr. destruct Hr as [k [<- _]]. unfold frame.
      now rewrite map_length, seq_length.
    - intros r c Hr Hc. rewrite nth_map_seq by auto. unfold frame. rewrite nth_map_seq by auto. reflexivity.
  Qed.

  Lemma buffer_flatten (s : list A) (len d : nat) : s <> [] -> (0 < len)%nat ->
    exists m pad, buffer zero eqb s (Z.of_nat len) 0 (Z.of_nat d) false = Ok m /\ (pad < len)%nat /\
      concat m = repeat zero d ++ s ++ repeat zero pad.
  Proof.
    intros Hs Hl. destruct (buffer_spec s len d 0 Hs Hl ltac:(lia)) as (m & E & Lm & Rm & Nm).
    rewrite Z.sub_0_r, Nat2Z.id in *. change (Z.max 0 0) with 0 in Lm. rewrite Z.sub_0_r in Lm.
    exists m, (length m * len - (d + length s))%nat. split; auto.
    assert (Hm : (d + length s <= length m * len < d + length s + len)%nat).
    { rewrite Lm. unfold ceil_div.
      assert (E1 := Z.div_mod (Z.of_nat d + Z.of_nat (length s) + Z.of_nat len - 1) (Z.of_nat len) ltac:(lia)).
      assert (M := Z.mod_pos_bound (Z.of_nat d + Z.of_nat (length s) + Z.of_nat len - 1) (Z.of_nat len) ltac:(lia)).
      set (q := _ / _) in *. set (r := _ mod _) in *. nia. }
    split; [lia|].
    apply nth_ext_def with (d := zero).
    - rewrite (concat_length_const len) by auto. rewrite !app_length, !repeat_length. lia.
    - intros i Hi. rewrite (concat_length_const len) in Hi by auto.
      rewrite (concat_nth_const zero len) by auto. rewrite nth_full.
      assert (i / len < length m)%nat by (apply Nat.div_lt_upper_bound; lia).
      assert (i mod len < len)%nat by (apply Nat.mod_upper_bound; lia).
      rewrite Nm by auto. f_equal. rewrite Nat.mul_comm. symmetry. apply Nat.div_mod. lia.
  Qed.

  Lemma buffer_empty len ov d c : ov <> len -> buffer zero eqb [] len ov d c = Raise IndexError.
  Proof.
    intros H. unfold buffer, arange. replace (len - ov =? 0) with false by (symmetry; apply Z.eqb_neq; lia). reflexivity.
  Qed.
  Lemma buffer_stride0 s len d c : buffer zero eqb s len len d c = Raise ZeroDivisionError.
  Proof. unfold buffer, arange. rewrite Z.sub_diag. reflexivity. Qed.

  (** clip *)
  Context (eqb_spec : forall a b, eqb a b = true <-> a = b).
  Lemma row_in_spec row m w : Forall (fun r => length r = w) m -> length row = w ->
    row_in eqb row m = true <-> exists i c, (i < length m)%nat /\ (c < w)%nat /\ nth c (nth i m []) zero = nth c row zero.
  Proof.
    intros Hm Hr. unfold row_in. rewrite existsb_exists. split.
    - intros [r [Hin H]]. apply existsb_exists in H. destruct H as [[x y] [Hxy E]]. simpl in E. apply eqb_spec in E. subst y.
      apply (In_nth _ _ []) in Hin. destruct Hin as [i [Hi Hni]].
      apply (In_nth _ _ (zero, zero)) in Hxy. destruct Hxy as [c [Hc Hnc]].
      assert (length r = w) by (rewrite <- Hni; apply (Forall_nth_lt _ _ _ [] Hm Hi)).
      rewrite combine_length in Hc. rewrite combine_nth in Hnc by lia. inversion Hnc.
      exists i, c. repeat split; auto; [lia|]. rewrite Hni, H2, H1. reflexivity.
    - intros (i & c & Hi & Hc & E). exists (nth i m []). split; [now apply nth_In|].
      apply existsb_exists. exists (nth c row zero, nth c (nth i m []) zero).
      assert (length (nth i m []) = w) by apply (Forall_nth_lt _ _ _ [] Hm Hi).
      split; [|simpl; now apply eqb_spec]. rewrite <- combine_nth by lia. apply nth_In. rewrite combine_length. lia.
  Qed.
  Lemma buffer_clip_spec (s : list A) (len d : nat) (ov : Z) :
    (0 < len)%nat -> (len <= length s)%nat -> ov < Z.of_nat len ->
    exists m, buffer zero eqb s (Z.of_nat len) ov (Z.of_nat d) false = Ok m /\ 
      (m <> [] -> exists b : bool, buffer zero eqb s (Z.of_nat len) ov (Z.of_nat d) true = Ok (if b then m else removelast m) /\
      (b = true <-> exists i c, (i < length s - 1)%nat /\ (c < len)%nat /\ window_entry zero s i c = nth c (last m []) zero)).
  Proof.
    intros Hl Hls Ho. assert (Hs : s <> []) by (destruct s; simpl in *; [lia|congruence]).
    assert (E := buffer_noclip s len d ov Hs Hl Ho).
    eexists. split; [exact E|]. match type of E with _ = Ok ?x => set (m := x) in * end. intros Hm.
    assert (Emain : forall c, buffer zero eqb s (Z.of_nat len) ov (Z.of_nat d) c =
       match buffer zero eqb s (Z.of_nat len) ov (Z.of_nat d) false with
       | Ok m => if c then last_row <- np_get m (-1) ;;
           if row_in eqb last_row (slice_to (hankel zero s (slice_to (rev s) (Z.of_nat len))) (-1))
           then Ok m else Ok (slice_to m (-1)) else Ok m
       | Raise e => Raise e end).
    { intros c. unfold buffer. destruct (arange 0 _ _); cbn [bind]; auto. destruct s; [reflexivity|].
      destruct (np_take _ _); cbn [bind]; auto. }
    rewrite (Emain true), E. clear Emain.
    assert (Hlm : (0 < length m)%nat) by (destruct m; simpl; [congruence|lia]).
    rewrite (np_get_neg m (-1) []) by lia. cbn [bind].
    assert (Elast : nth (Z.to_nat (-1 + Z.of_nat (length m))) m [] = last m []).
    { replace (Z.to_nat (-1 + Z.of_nat (length m))) with (length m - 1)%nat by lia. apply nth_last_eq. }
    rewrite Elast.
    set (hk := slice_to (hankel zero s (slice_to (rev s) (Z.of_nat len))) (-1)).
    assert (Hhk : hk = map (fun i => map (window_entry zero s i) (seq 0 len)) (seq 0 (length s - 1))).
    { unfold hk. change (-1) with (-1 * Z.of_nat 1). rewrite slice_to_neg by lia.
      rewrite slice_to_nat. unfold hankel. rewrite firstn_length, rev_length, map_length, seq_length.
      rewrite Nat.min_l by lia. rewrite firstn_map.
      replace (firstn (length s - 1) (seq 0 (length s))) with (seq 0 (length s - 1)).
      2:{ replace (length s) with ((length s - 1) + 1)%nat at 3 by lia. rewrite seq_app, firstn_app, seq_length, Nat.sub_diag.
          simpl. rewrite app_nil_r. symmetry. apply firstn_all2. rewrite seq_length. lia. }
      apply map_ext_in. intros i Hi. apply in_seq in Hi. apply map_ext_in. intros c Hc. apply in_seq in Hc.
      unfold window_entry. destruct (i + c <? length s)%nat eqn:E2; auto. apply Nat.ltb_ge in E2.
      rewrite nth_firstn by lia. rewrite rev_nth by lia. f_equal. lia. }
    exists (row_in eqb (last m []) hk). split.
    - destruct (row_in eqb (last m []) hk); auto. f_equal. change (-1) with (-1 * Z.of_nat 1).
      rewrite slice_to_neg by lia. now rewrite removelast_firstn_eq.
    - rewrite (row_in_spec _ _ len).
      + rewrite Hhk. rewrite map_length, seq_length. split.
        * intros (i & c & Hi & Hc & E3). exists i, c. repeat split; auto. rewrite nth_map_seq, nth_map_seq in E3 by auto. exact E3.
        * intros (i & c & Hi & Hc & E3). exists i, c. repeat split; auto. rewrite nth_map_seq, nth_map_seq by auto. exact E3.
      + rewrite Hhk. apply Forall_forall. intros r Hr. apply in_map_iff in Hr. destruct Hr as [i [<- _]]. now rewrite map_length, seq_length.
      + clearbody hk. assert (In (last m []) m) by (assert (HL := nth_last_eq [] m); rewrite <- HL; apply nth_In; lia).
        revert H. generalize (last m []). intros r H. apply in_map_iff in H. destruct H as [k [<- _]]. unfold frame. now rewrite map_length, seq_length.
  Qed.
End Buf.
