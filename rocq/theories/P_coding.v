(** Proofs about gray, differential, Manchester, MLT-3 and differential Manchester coding. *)
From Verif Require Import Py B_list M_aux S_aux P_aux P_map M_coding S_coding.
From Coq Require Import QArith.
Open Scope Z_scope.
Ltac Zify.zify_post_hook ::= Z.div_mod_to_equations.

Lemma nda_eta {A} (p : nda A) : mk_nda (shape p) (data p) = p. Proof. destruct p; auto. Qed.

(** *** Gray *)
Lemma np_take_map {A} (l : list A) (d : A) idx : Forall (fun i => 0 <= i < Z.of_nat (length l)) idx ->
  np_take l idx = Ok (map (fun i => nth (Z.to_nat i) l d) idx).
Proof.
  intros H. unfold np_take. apply map_res_ok. intros i Hi. rewrite Forall_forall in H. apply np_get_Z. auto.
Qed.
Lemma gray_roundtrip c (p : nda Z) : c <> PAM3 ->
  Forall (fun i => 0 <= i < Z.of_nat (length (get_levels c))) (data p) ->
  exists q, coding_gray c p = Ok q /\ shape q = shape p /\
    Forall (fun i => 0 <= i < Z.of_nat (length (get_levels c))) (data q) /\ decoding_gray c q = Ok p.
Proof.
  intros Hc H.
  destruct c; [| |congruence|].
  1,2: exists p; split; [reflexivity|]; split; auto; split; auto; unfold decoding_gray; cbn [length get_levels] in *;
    change (1 <? ceil_log2 2)%nat with false; cbv iota; rewrite (np_take_map _ 0) by exact H; cbn [bind];
    destruct p as [sh d]; cbn [shape data] in *; do 2 f_equal; rewrite <- (map_id d) at 2; apply map_ext_in; intros i Hi;
    rewrite Forall_forall in H; specialize (H i Hi); assert (E : i = 0 \/ i = 1) by lia; destruct E; subst; reflexivity.
  unfold coding_gray, decoding_gray. cbn [length get_levels] in *. change (1 <? ceil_log2 4)%nat with true. cbv iota.
  change (get_gray_level_vec 4) with [0; 1; 3; 2]. rewrite (np_take_map _ 0) by exact H. cbn [bind]. eexists. split; [reflexivity|].
  split; [reflexivity|]. cbn [data shape].
  assert (F : Forall (fun i => 0 <= i < Z.of_nat (length [0; 1; 3; 2])) (map (fun i => nth (Z.to_nat i) [0; 1; 3; 2] 0) (data p))).
  { apply Forall_forall. intros v Hv. apply in_map_iff in Hv. destruct Hv as [i [<- Hi]].
    rewrite Forall_forall in H; specialize (H i Hi); assert (E : i = 0 \/ i = 1 \/ i = 2 \/ i = 3) by lia.
    destruct E as [|[|[|]]]; subst; simpl; lia. }
  split; [exact F|]. rewrite (np_take_map _ 0) by exact F. cbn [bind]. destruct p as [sh d]. cbn [shape data] in *.
  do 2 f_equal. rewrite map_map. rewrite <- (map_id d) at 2. apply map_ext_in. intros i Hi.
  rewrite Forall_forall in H; specialize (H i Hi); assert (E : i = 0 \/ i = 1 \/ i = 2 \/ i = 3) by lia.
  destruct E as [|[|[|]]]; subst; reflexivity.
Qed.
Lemma gray_pam3 (p : nda Z) : Forall (fun i => 0 <= i < 3) (data p) ->
  exists q, coding_gray PAM3 p = Ok q /\
    (In 2 (data p) -> decoding_gray PAM3 q = Raise IndexError) /\
    (~ In 2 (data p) -> q = p /\ decoding_gray PAM3 q = Ok p).
Proof.
  intros H. unfold coding_gray, decoding_gray. cbn [length get_levels] in *. change (1 <? ceil_log2 3)%nat with true. cbv iota.
  change (get_gray_level_vec 3) with [0; 1; 3]. rewrite (np_take_map _ 0) by exact H. cbn [bind]. eexists. split; [reflexivity|].
  cbn [data shape]. split.
  - intros Hin. rewrite np_take_out; auto. apply Exists_exists. exists 3. split.
    + apply in_map_iff. exists 2. auto.
    + simpl. lia.
  - intros Hin.
    assert (E : map (fun i => nth (Z.to_nat i) [0; 1; 3] 0) (data p) = data p).
    { rewrite <- (map_id (data p)) at 2. apply map_ext_in. intros i Hi. rewrite Forall_forall in H; specialize (H i Hi).
      assert (i <> 2) by (intros ->; auto). assert (C : i = 0 \/ i = 1) by lia. destruct C; subst; reflexivity. }
    rewrite E, nda_eta. split; auto. rewrite (np_take_map _ 0) by exact H. cbn [bind]. rewrite E, nda_eta. reflexivity.
Qed.

(** *** Differential *)
Lemma cumsum_length a l : length (cumsum a l) = length l.
Proof. revert a; induction l; simpl; auto. Qed.
Lemma cumsum_nth a l i : (i < length l)%nat -> nth i (cumsum a l) 0 = a + sumZ (firstn (S i) l).
Proof.
  revert a i; induction l as [|x l IH]; simpl; intros a i Hi; [lia|]. destruct i.
  - simpl. lia.
  - rewrite IH by lia. simpl. lia.
Qed.
Lemma diff_from_length a l : length (diff_from a l) = length l.
Proof. revert a; induction l; simpl; auto. Qed.
Lemma diff_from_nth a l i : (i < length l)%nat ->
  nth i (diff_from a l) 0 = nth i l 0 - (if (i =? 0)%nat then a else nth (i - 1) l 0).
Proof.
  revert a i; induction l as [|x l IH]; intros a i Hi; simpl in Hi; [lia|]. destruct i; [reflexivity|].
  cbn [diff_from nth]. rewrite IH by lia. replace (S i - 1)%nat with i by lia. cbn [Nat.eqb].
  destruct i; [reflexivity|]. cbn [Nat.eqb nth]. now replace (S i - 1)%nat with i by lia.
Qed.
Lemma sumZ_firstn_S l i : (i < length l)%nat -> sumZ (firstn (S i) l) = sumZ (firstn i l) + nth i l 0.
Proof.
  revert l; induction i; intros [|x l] H; simpl in H; try lia; [simpl; lia|].
  change (firstn (S (S i)) (x :: l)) with (x :: firstn (S i) l). change (firstn (S i) (x :: l)) with (x :: firstn i l).
  cbn [sumZ fold_right nth]. fold (sumZ (firstn (S i) l)) (sumZ (firstn i l)). rewrite IHi by lia. lia.
Qed.

Definition nlev (c : constellation) : Z := Z.of_nat (length (get_levels c)).
Lemma nlev_pos c : 2 <= nlev c. Proof. destruct c; unfold nlev; simpl; lia. Qed.
Lemma coding_diff_nth c p i : (i < length (data p))%nat ->
  nth i (data (coding_differential c p)) 0 = sumZ (firstn (S i) (data p)) mod nlev c.
Proof.
  intros H. unfold coding_differential. cbn [data]. rewrite (map_nth_lt _ _ _ 0) by (now rewrite cumsum_length).
  rewrite cumsum_nth by auto. reflexivity.
Qed.
Lemma coding_diff_length c p : length (data (coding_differential c p)) = length (data p).
Proof. unfold coding_differential. cbn [data]. now rewrite map_length, cumsum_length. Qed.
Lemma coding_diff_rec c p : 
  shape (coding_differential c p) = shape p /\ length (data (coding_differential c p)) = length (data p) /\
  forall i, (i < length (data p))%nat ->
    nth i (data (coding_differential c p)) 0 =
    (nth i (data p) 0 + (if (i =? 0)%nat then 0 else nth (i - 1) (data (coding_differential c p)) 0)) mod nlev c.
Proof.
  split; [reflexivity|]. split; [apply coding_diff_length|]. intros i Hi. rewrite coding_diff_nth by auto.
  rewrite sumZ_firstn_S by auto. assert (Hn := nlev_pos c). destruct i.
  - simpl firstn. cbn [sumZ fold_right Nat.eqb]. f_equal. lia.
  - cbn [Nat.eqb]. replace (S i - 1)%nat with i by lia. rewrite coding_diff_nth by lia.
    rewrite Z.add_mod_idemp_r by lia. f_equal. lia.
Qed.

(** Decoder of a general n-D array, entry by entry. *)
Lemma chunk_entry {A} (d : A) w l i : (0 < w)%nat -> (i < length l / w * w)%nat ->
  nth (i mod w) (nth (i / w) (chunks w l) []) d = nth i l d.
Proof.
  intros Hw Hi. assert (Hd : (i / w < length l / w)%nat) by (apply Nat.div_lt_upper_bound; lia).
  rewrite chunks_nth by auto. assert (i mod w < w)%nat by (apply Nat.mod_upper_bound; lia).
  rewrite nth_firstn, nth_skipn by auto. f_equal. rewrite Nat.mul_comm. symmetry. apply Nat.div_mod. lia.
Qed.
Lemma rowwise_nth (f : list Z -> list Z) w l i : (0 < w)%nat -> (forall r, length (f r) = length r) ->
  (i < length l / w * w)%nat ->
  nth i (concat (map f (chunks w l))) 0 = nth (i mod w) (f (nth (i / w) (chunks w l) [])) 0.
Proof.
  intros Hw Hf Hi. assert (Hd : (i / w < length l / w)%nat) by (apply Nat.div_lt_upper_bound; lia).
  rewrite (concat_nth_const 0 w); auto.
  - rewrite (map_nth_lt _ _ _ []) by (now rewrite chunks_count). reflexivity.
  - apply Forall_forall. intros r Hr. apply in_map_iff in Hr. destruct Hr as [r0 [<- Hr]]. rewrite Hf.
    assert (R := chunks_rows w l Hw). rewrite Forall_forall in R. now apply R.
Qed.
Lemma rowwise_length (f : list Z -> list Z) w l : (0 < w)%nat -> (forall r, length (f r) = length r) ->
  length (concat (map f (chunks w l))) = (length l / w * w)%nat.
Proof.
  intros Hw Hf. rewrite (concat_length_const w).
  - now rewrite map_length, chunks_count.
  - apply Forall_forall. intros r Hr. apply in_map_iff in Hr. destruct Hr as [r0 [<- Hr]]. rewrite Hf.
    assert (R := chunks_rows w l Hw). rewrite Forall_forall in R. now apply R.
Qed.
Lemma size_last sh : sh <> [] -> size sh = (size (removelast sh) * last_dim sh)%nat.
Proof.
  intros H. destruct (exists_last H) as [s [d ->]]. unfold last_dim. rewrite last_last, removelast_last.
  unfold size. rewrite fold_right_app. simpl. rewrite Nat.mul_1_r. clear. induction s; simpl; [lia|]. rewrite IHs. lia.
Qed.
Lemma wf_divides {A} (p : nda A) : shape p <> [] -> wf_nda p -> (0 < last_dim (shape p))%nat ->
  (length (data p) / last_dim (shape p) * last_dim (shape p) = length (data p))%nat.
Proof.
  intros Hs Hw Hl. unfold wf_nda in Hw. rewrite Hw, (size_last _ Hs), Nat.div_mul by lia. reflexivity.
Qed.
Lemma decoding_diff_spec c p : shape p <> [] -> wf_nda p -> (0 < last_dim (shape p))%nat ->
  exists q, decoding_differential c p = Ok q /\ shape q = shape p /\ length (data q) = length (data p) /\
   forall i, (i < length (data p))%nat -> nth i (data q) 0 =
     (nth i (data p) 0 - (if (i mod last_dim (shape p) =? 0)%nat then 0 else nth (i - 1) (data p) 0)) mod nlev c.
Proof.
  intros Hs Hw Hl. unfold decoding_differential. set (w := last_dim (shape p)) in *.
  replace (w =? 0)%nat with false by (symmetry; apply Nat.eqb_neq; lia).
  assert (D := wf_divides p Hs Hw Hl). fold w in D.
  eexists. split; [reflexivity|]. cbn [shape data]. split; auto. split.
  - rewrite map_length, rowwise_length by (auto using diff_from_length). auto.
  - intros i Hi. rewrite (map_nth_lt _ _ _ 0) by (rewrite rowwise_length by (auto using diff_from_length); lia).
    rewrite rowwise_nth by (auto using diff_from_length; lia).
    assert (Hm : (i mod w < w)%nat) by (apply Nat.mod_upper_bound; lia).
    assert (Hdv : (i / w < length (data p) / w)%nat) by (apply Nat.div_lt_upper_bound; lia).
    assert (L : length (nth (i / w) (chunks w (data p)) []) = w).
    { assert (R := chunks_rows w (data p) Hl). apply (Forall_nth_lt _ _ _ [] R). now rewrite chunks_count. }
    rewrite diff_from_nth by lia. rewrite chunk_entry by lia. f_equal. f_equal.
    destruct (i mod w =? 0)%nat eqn:E; auto. apply Nat.eqb_neq in E.
    assert (Ed := Nat.div_mod i w ltac:(lia)).
    assert (E1 : ((i - 1) / w = i / w)%nat) by (symmetry; apply Nat.div_unique with ((i mod w) - 1)%nat; lia).
    assert (E2 : ((i - 1) mod w = (i mod w) - 1)%nat) by (symmetry; apply Nat.mod_unique with (i / w)%nat; lia).
    rewrite <- E2, <- E1. apply chunk_entry; lia.
Qed.
Lemma decoding_diff_empty c p : last_dim (shape p) = 0%nat -> decoding_differential c p = Raise ValueError.
Proof. intros H. unfold decoding_differential. now rewrite H. Qed.

(** Encoder then decoder: every symbol comes back except at the start of the second and later rows. *)
Lemma diff_roundtrip c p : shape p <> [] -> wf_nda p -> (0 < last_dim (shape p))%nat ->
  Forall (fun i => 0 <= i < nlev c) (data p) ->
  exists q, decoding_differential c (coding_differential c p) = Ok q /\ shape q = shape p /\ length (data q) = length (data p) /\
   forall i, (i < length (data p))%nat -> nth i (data q) 0 =
     if ((i mod last_dim (shape p) =? 0) && negb (i =? 0))%nat
     then nth i (data (coding_differential c p)) 0 else nth i (data p) 0.
Proof.
  intros Hs Hw Hl Hr.
  assert (Hw' : wf_nda (coding_differential c p)) by (unfold wf_nda; rewrite coding_diff_length; exact Hw).
  destruct (decoding_diff_spec c (coding_differential c p) Hs Hw' Hl) as (q & E & Sq & Lq & Nq).
  exists q. split; auto. split; auto. rewrite coding_diff_length in *. split; auto. intros i Hi. rewrite Nq by auto.
  change (shape (coding_differential c p)) with (shape p). assert (Hn := nlev_pos c).
  assert (Hri := Forall_nth_lt _ _ _ 0 Hr Hi). cbn beta in Hri.
  destruct (coding_diff_rec c p) as (_ & _ & R). rewrite (R i Hi). set (y := data (coding_differential c p)) in *.
  destruct (i mod last_dim (shape p) =? 0)%nat eqn:E1.
  - destruct (i =? 0)%nat eqn:E2; cbn [andb negb].
    + rewrite Z.sub_0_r, Z.add_0_r, Z.mod_mod by lia. apply Z.mod_small. lia.
    + rewrite Z.sub_0_r, Z.mod_mod by lia. reflexivity.
  - cbn [andb]. assert (E2 : (i =? 0)%nat = false).
    { apply Nat.eqb_neq. intros ->. rewrite Nat.mod_0_l in E1 by lia. discriminate. }
    rewrite E2. rewrite Zminus_mod_idemp_l. replace (nth i (data p) 0 + nth (i - 1) y 0 - nth (i - 1) y 0) with (nth i (data p) 0) by lia.
    apply Z.mod_small. lia.
Qed.
Lemma diff_roundtrip_1d c (x : list Z) : x <> [] -> Forall (fun i => 0 <= i < nlev c) x ->
  decoding_differential c (coding_differential c (vec x)) = Ok (vec x).
Proof.
  intros Hx Hr. assert (Hl : (0 < length x)%nat) by (destruct x; simpl; [congruence|lia]).
  destruct (diff_roundtrip c (vec x)) as (q & E & Sq & Lq & Nq); auto.
  - discriminate.
  - unfold wf_nda, vec, size. simpl. lia.
  - rewrite E. f_equal. destruct q as [sh d]. cbn [shape data vec] in *. subst sh. unfold vec. f_equal.
    apply (nth_ext_def 0); auto. intros i Hi. rewrite Nq by lia.
    unfold last_dim. cbn [last]. rewrite Nat.mod_small by lia. destruct (i =? 0)%nat; reflexivity.
Qed.
(** A constant rotation of the line only affects the first symbol. *)
Lemma diff_rotation c (x : list Z) k : x <> [] -> Forall (fun i => 0 <= i < nlev c) x ->
  exists q, decoding_differential c (vec (map (fun v => (v + k) mod nlev c) (data (coding_differential c (vec x))))) = Ok (vec q) /\
    length q = length x /\ forall i, (0 < i < length x)%nat -> nth i q 0 = nth i x 0.
Proof.
  intros Hx Hr. assert (Hl : (0 < length x)%nat) by (destruct x; simpl; [congruence|lia]).
  set (y := data (coding_differential c (vec x))).
  assert (Ly : length y = length x) by (unfold y; now rewrite coding_diff_length).
  set (p := vec (map (fun v => (v + k) mod nlev c) y)).
  destruct (decoding_diff_spec c p) as (q & E & Sq & Lq & Nq).
  - discriminate.
  - unfold wf_nda, p, vec, size. simpl. rewrite !map_length. lia.
  - unfold p, last_dim. simpl. rewrite map_length. lia.
  - exists (data q). assert (Lp : length (data p) = length x) by (unfold p; simpl; now rewrite map_length).
    split; [rewrite E; f_equal; destruct q as [sh d]; cbn [shape data] in *; subst sh; unfold p, vec; cbn [shape]; 
      rewrite Lq, Lp; rewrite map_length, Ly; reflexivity|]. split; [lia|].
    intros i Hi. rewrite Nq by lia.
    assert (Ew : last_dim (shape p) = length x) by (unfold p, last_dim; simpl; rewrite map_length; auto). rewrite Ew.
    rewrite Nat.mod_small by lia. replace (i =? 0)%nat with false by (symmetry; apply Nat.eqb_neq; lia).
    unfold p. cbn [data vec]. rewrite !(map_nth_lt _ _ _ 0) by lia.
    destruct (coding_diff_rec c (vec x)) as (_ & _ & R). specialize (R i ltac:(simpl; lia)). fold y in R. cbn [data vec] in R.
    replace (i =? 0)%nat with false in R by (symmetry; apply Nat.eqb_neq; lia).
    assert (Hn := nlev_pos c). assert (Hri := Forall_nth_lt _ _ i 0 Hr ltac:(lia)). cbn beta in Hri.
    rewrite Zminus_mod_idemp_l, Zminus_mod_idemp_r. rewrite R.
    replace ((nth i x 0 + nth (i - 1) y 0) mod nlev c + k - (nth (i - 1) y 0 + k))
      with ((nth i x 0 + nth (i - 1) y 0) mod nlev c - nth (i - 1) y 0) by lia.
    rewrite Zminus_mod_idemp_l. replace (nth i x 0 + nth (i - 1) y 0 - nth (i - 1) y 0) with (nth i x 0) by lia.
    apply Z.mod_small. lia.
Qed.

(** *** Manchester *)
Definition mcell (b : Z) : list Z := [b; 1 - b].
Lemma reshape_ok {A} (l : list A) sh : length l = size sh -> reshape l sh = Ok (mk_nda sh l).
Proof. intros H. unfold reshape. now rewrite H, Nat.eqb_refl. Qed.
Lemma size_set_last sh d : size (set_last_dim sh d) = (size (removelast sh) * d)%nat.
Proof.
  unfold set_last_dim, size. rewrite fold_right_app. simpl. rewrite Nat.mul_1_r.
  induction (removelast sh); simpl; [lia|]. rewrite IHl. lia.
Qed.
Lemma bits_case (P : Z -> Prop) b : isbit b -> P 0 -> P 1 -> P b.
Proof. intros [->| ->]; auto. Qed.
Lemma manch_enc p : bits (data p) -> shape p <> [] -> wf_nda p ->
  coding_manchester p = Ok (mk_nda (set_last_dim (shape p) (2 * last_dim (shape p))) (concat (map mcell (data p)))).
Proof.
  intros Hb Hs Hw. unfold coding_manchester. rewrite check_binary_bits by auto. cbn [bind].
  destruct (shape p) as [|s0 sh] eqn:E; [congruence|]. rewrite <- E in *. clear E.
  assert (T : np_take [[0; 1]; [1; 0]] (data p) = Ok (map mcell (data p))).
  { unfold np_take. apply map_res_ok. intros b Hin. unfold bits in Hb. rewrite Forall_forall in Hb.
    destruct (Hb b Hin) as [->| ->]; reflexivity. }
  rewrite T. cbn [bind]. apply reshape_ok. rewrite (concat_length_const 2).
  - rewrite map_length, size_set_last. unfold wf_nda in Hw. rewrite Hw, (size_last _ Hs). lia.
  - apply Forall_forall. intros r Hr. apply in_map_iff in Hr. destruct Hr as [b [<- _]]. reflexivity.
Qed.
Lemma mcells_len x : length (concat (map mcell x)) = (2 * length x)%nat.
Proof. induction x; simpl; auto. rewrite IHx. lia. Qed.
Lemma mcells_bits x : bits x -> bits (concat (map mcell x)).
Proof.
  induction 1 as [|b x Hb _ IH]; [constructor|]. cbn [map concat]. apply bits_app. split; auto.
  destruct Hb as [->| ->]; repeat constructor; (left + right); reflexivity.
Qed.
Lemma mcells_rows x : Forall (fun r => length r = 2%nat) (map mcell x).
Proof. apply Forall_forall. intros r Hr. apply in_map_iff in Hr. destruct Hr as [b [<- _]]. reflexivity. Qed.
Lemma mcells_nth x i : (i < 2 * length x)%nat -> nth i (concat (map mcell x)) 0 = if Nat.even i then nth (i / 2) x 0 else 1 - nth (i / 2) x 0.
Proof.
  intros Hi. rewrite (concat_nth_const 0 2) by (try apply mcells_rows; lia).
  rewrite (map_nth_lt _ _ _ 0) by (apply Nat.div_lt_upper_bound; lia).
  destruct (Nat.even i) eqn:E.
  - apply Nat.even_spec in E. destruct E as [k ->]. rewrite Nat.mul_comm, Nat.mod_mul by lia. reflexivity.
  - assert (O : Nat.odd i = true) by (unfold Nat.odd; now rewrite E). apply Nat.odd_spec in O. destruct O as [k ->].
    replace ((2 * k + 1) mod 2)%nat with 1%nat by (apply Nat.mod_unique with k; lia). reflexivity.
Qed.

(** decoder *)
Lemma manch_dec p : bits (data p) -> shape p <> [] -> wf_nda p -> Nat.even (last_dim (shape p)) = true ->
  decoding_manchester p = Ok (mk_nda (set_last_dim (shape p) (last_dim (shape p) / 2)) (map manch_value (chunks 2 (data p)))).
Proof.
  intros Hb Hs Hw He. unfold decoding_manchester. rewrite check_binary_bits by auto. cbn [bind].
  destruct (shape p) as [|s0 sh] eqn:E; [congruence|]. rewrite <- E in *. clear E.
  apply Nat.even_spec in He. destruct He as [k Hk]. unfold wf_nda in Hw. rewrite (size_last _ Hs), Hk in Hw.
  assert (Hl : length (data p) = (size (removelast (shape p)) * k * 2)%nat) by (rewrite Hw; lia).
  unfold reshape_rows. cbn [Nat.eqb]. rewrite Hl, Nat.mod_mul by lia. cbn [Nat.eqb bind].
  apply reshape_ok. rewrite map_length, chunks_count, size_set_last, Hl, Nat.div_mul, Hk by lia.
  rewrite (Nat.mul_comm 2 k), Nat.div_mul by lia. reflexivity.
Qed.
Lemma manch_odd p : bits (data p) -> shape p <> [] -> Nat.odd (length (data p)) = true -> decoding_manchester p = Raise ValueError.
Proof.
  intros Hb Hs Ho. unfold decoding_manchester. rewrite check_binary_bits by auto. cbn [bind].
  destruct (shape p); [congruence|]. unfold reshape_rows. cbn [Nat.eqb].
  apply Nat.odd_spec in Ho. destruct Ho as [k Hk].
  replace (length (data p) mod 2)%nat with 1%nat by (apply Nat.mod_unique with k; lia). reflexivity.
Qed.
Lemma set_last_last sh d : sh <> [] -> last_dim (set_last_dim sh d) = d.
Proof. intros. unfold last_dim, set_last_dim. apply last_last. Qed.
Lemma set_last_set sh d e : set_last_dim (set_last_dim sh d) e = set_last_dim sh e.
Proof. unfold set_last_dim. now rewrite removelast_last. Qed.
Lemma set_last_same sh : sh <> [] -> set_last_dim sh (last_dim sh) = sh.
Proof. intros H. unfold set_last_dim, last_dim. symmetry. now apply app_removelast_last. Qed.
Lemma set_last_ne sh d : set_last_dim sh d <> [].
Proof. unfold set_last_dim. destruct (removelast sh); discriminate. Qed.
Lemma even_double n : Nat.even (2 * n) = true. Proof. apply Nat.even_spec. exists n; auto. Qed.
Lemma wf_double (sh : list nat) {A} (l : list A) n : sh <> [] -> n = size sh -> length l = (2 * n)%nat ->
  wf_nda (mk_nda (set_last_dim sh (2 * last_dim sh)) l).
Proof. intros Hs Hn Hl. unfold wf_nda. cbn [data shape]. rewrite size_set_last, Hl, Hn, (size_last _ Hs). lia. Qed.

Lemma manch_roundtrip p : bits (data p) -> shape p <> [] -> wf_nda p ->
  exists q, coding_manchester p = Ok q /\ decoding_manchester q = Ok (mk_nda (shape p) (map inject_Z (data p))).
Proof.
  intros Hb Hs Hw. rewrite manch_enc by auto. eexists. split; [reflexivity|].
  rewrite manch_dec; cbn [shape data].
  - rewrite set_last_last, set_last_set by auto. rewrite (Nat.mul_comm 2), Nat.div_mul, set_last_same by (auto; lia).
    do 2 f_equal. rewrite chunks_of_concat by (try apply mcells_rows; lia). rewrite map_map. apply map_ext_in. intros b Hin.
    unfold bits in Hb. rewrite Forall_forall in Hb. destruct (Hb b Hin) as [->| ->]; reflexivity.
  - now apply mcells_bits.
  - apply set_last_ne.
  - eapply wf_double; eauto. apply mcells_len.
  - rewrite set_last_last by auto. apply even_double.
Qed.
Lemma sum_mcells x : sumZ (concat (map mcell x)) = Z.of_nat (length x).
Proof.
  induction x; auto. cbn [map concat length]. unfold mcell at 1. cbn [app sumZ fold_right].
  fold (sumZ (concat (map mcell x))). rewrite IHx. lia.
Qed.
Lemma manch_line p : bits (data p) -> shape p <> [] -> wf_nda p ->
  exists q, coding_manchester p = Ok q /\ length (data q) = (2 * length (data p))%nat /\ bits (data q) /\
    (forall i, (i < length (data p))%nat -> nth (2 * i) (data q) 0 = nth i (data p) 0 /\
        nth (2 * i + 1) (data q) 0 = 1 - nth i (data p) 0) /\
    (forall n, (n <= length (data q))%nat -> -1 <= disparity (data q) n <= 1) /\
    (forall i, (i < length (data p))%nat -> disparity (data q) (2 * i) = 0) /\
    disparity (data q) (length (data q)) = 0.
Proof.
  intros Hb Hs Hw. rewrite manch_enc by auto. eexists. split; [reflexivity|]. cbn [data]. set (x := data p) in *.
  split; [apply mcells_len|]. split; [now apply mcells_bits|]. split.
  - intros i Hi. rewrite !mcells_nth by lia. rewrite even_double.
    replace (2 * i / 2)%nat with i by (rewrite Nat.mul_comm, Nat.div_mul; lia).
    replace (Nat.even (2 * i + 1)) with false by (rewrite Nat.even_add, even_double; reflexivity).
    replace ((2 * i + 1) / 2)%nat with i by (apply Nat.div_unique with 1%nat; lia). auto.
  - assert (E : forall x i, (i <= length x)%nat -> firstn (2 * i) (concat (map mcell x)) = concat (map mcell (firstn i x))).
    { clear. intros x i; revert x; induction i; intros [|b x] H; simpl in H; try lia; auto.
      replace (2 * S i)%nat with (S (S (2 * i))) by lia. cbn [map concat mcell app firstn]. rewrite IHi by lia. reflexivity. }
    assert (D : forall i, (i <= length x)%nat -> disparity (concat (map mcell x)) (2 * i) = 0).
    { intros i Hi. unfold disparity. rewrite E by auto. fold (sumZ (concat (map mcell (firstn i x)))).
      rewrite sum_mcells, firstn_length. lia. }
    rewrite mcells_len. split; [|split; [intros; apply D; lia|apply D; lia]].
    intros n Hn. destruct (Nat.Even_or_Odd n) as [[k ->]|[k ->]]; [rewrite D; lia|].
    assert (Dk := D k ltac:(lia)). unfold disparity in *. fold (sumZ (firstn (2 * k) (concat (map mcell x)))) in Dk.
    fold (sumZ (firstn (2 * k + 1) (concat (map mcell x)))). replace (2 * k + 1)%nat with (S (2 * k)) by lia.
    rewrite sumZ_firstn_S by (rewrite mcells_len; lia).
    assert (B := bits_nth (concat (map mcell x)) (2 * k) (mcells_bits x Hb)). unfold isbit in B. lia.
Qed.
Lemma replace_at_length {A} p (e : A) y : length (replace_at p e y) = length y.
Proof. unfold replace_at. rewrite map_length, combine_length, seq_length. lia. Qed.
Lemma replace_at_nth {A} (d : A) p e y i : (i < length y)%nat -> nth i (replace_at p e y) d = if (i =? p)%nat then e else nth i y d.
Proof.
  intros H. unfold replace_at. rewrite (map_nth_lt _ _ _ (0%nat, d)) by (rewrite combine_length, seq_length; lia).
  rewrite combine_nth by (now rewrite seq_length). rewrite seq_nth by auto. reflexivity.
Qed.
Lemma manch_single_error p j : bits (data p) -> shape p <> [] -> wf_nda p -> (j < 2 * length (data p))%nat ->
  exists q r, coding_manchester p = Ok q /\
    decoding_manchester (mk_nda (shape q) (replace_at j (1 - nth j (data q) 0) (data q))) = Ok r /\ shape r = shape p /\
    length (data r) = length (data p) /\
    nth (j / 2) (data r) 0%Q = (1 # 2)%Q /\
    forall i, (i < length (data p))%nat -> i <> (j / 2)%nat -> nth i (data r) 0%Q = inject_Z (nth i (data p) 0).
Proof.
  intros Hb Hs Hw Hj. rewrite manch_enc by auto. do 2 eexists. split; [reflexivity|]. cbn [data shape].
  set (y := concat (map mcell (data p))). assert (Ly : length y = (2 * length (data p))%nat) by apply mcells_len.
  set (y' := replace_at j (1 - nth j y 0) y). assert (Ly' : length y' = (2 * length (data p))%nat) by (unfold y'; rewrite replace_at_length; auto).
  assert (By : bits y) by now apply mcells_bits.
  assert (By' : bits y').
  { apply Forall_forall. intros v Hv. apply (In_nth _ _ 0) in Hv. destruct Hv as [i [Hi <-]].
    unfold y'. rewrite replace_at_nth by lia. destruct (i =? j)%nat; [|now apply bits_nth].
    destruct (bits_nth y j By) as [->| ->]; [right|left]; reflexivity. }
  rewrite manch_dec; cbn [shape data].
  2: exact By'. 2: apply set_last_ne. 2: { eapply wf_double; eauto. }
  2: rewrite set_last_last by auto; apply even_double.
  rewrite set_last_last, set_last_set by auto. rewrite (Nat.mul_comm 2), Nat.div_mul, set_last_same by (auto; lia).
  split; [reflexivity|]. cbn [shape data]. split; auto.
  assert (Lc : length (chunks 2 y') = length (data p)) by (rewrite chunks_count, Ly', Nat.mul_comm, Nat.div_mul; lia).
  split; [now rewrite map_length|].
  assert (V : forall i, (i < length (data p))%nat -> nth i (map manch_value (chunks 2 y')) 0%Q =
     Qred (1 - (nth (2 * i + 1) y' 0 - nth (2 * i) y' 0) # 2)).
  { intros i Hi. rewrite (map_nth_lt _ _ _ []) by lia. unfold manch_value. rewrite chunks_nth by (rewrite Ly', Nat.mul_comm, Nat.div_mul; lia).
    rewrite !nth_firstn, !nth_skipn by lia. replace (i * 2 + 1)%nat with (2 * i + 1)%nat by lia. replace (i * 2 + 0)%nat with (2 * i)%nat by lia. reflexivity. }
  assert (C : forall i, (i < length (data p))%nat -> nth (2 * i) y 0 = nth i (data p) 0 /\ nth (2 * i + 1) y 0 = 1 - nth i (data p) 0).
  { intros i Hi. unfold y. rewrite !mcells_nth by lia. rewrite even_double.
    replace (2 * i / 2)%nat with i by (rewrite Nat.mul_comm, Nat.div_mul; lia).
    replace (Nat.even (2 * i + 1)) with false by (rewrite Nat.even_add, even_double; reflexivity).
    replace ((2 * i + 1) / 2)%nat with i by (apply Nat.div_unique with 1%nat; lia). auto. }
  assert (Hj2 : (j / 2 < length (data p))%nat) by (apply Nat.div_lt_upper_bound; lia).
  split.
  - rewrite V by auto. unfold y'. rewrite !replace_at_nth by lia. destruct (C _ Hj2) as [C1 C2].
    assert (Bp := bits_nth (data p) (j / 2) Hb).
    destruct (Nat.Even_or_Odd j) as [[k Hk]|[k Hk]].
    + assert (Ek : (j / 2 = k)%nat) by (rewrite Hk, Nat.mul_comm, Nat.div_mul; lia). rewrite Ek in *.
      replace (2 * k + 1 =? j)%nat with false by (symmetry; apply Nat.eqb_neq; lia).
      replace (2 * k =? j)%nat with true by (symmetry; apply Nat.eqb_eq; lia).
      rewrite C2. replace (nth j y 0) with (nth k (data p) 0) by (rewrite <- C1; f_equal; lia). destruct Bp as [->| ->]; reflexivity.
    + assert (Ek : (j / 2 = k)%nat) by (rewrite Hk; symmetry; apply Nat.div_unique with 1%nat; lia). rewrite Ek in *.
      replace (2 * k + 1 =? j)%nat with true by (symmetry; apply Nat.eqb_eq; lia).
      replace (2 * k =? j)%nat with false by (symmetry; apply Nat.eqb_neq; lia).
      rewrite C1. replace (nth j y 0) with (1 - nth k (data p) 0) by (rewrite <- C2; f_equal; lia). destruct Bp as [->| ->]; reflexivity.
  - intros i Hi Hne. rewrite V by auto. unfold y'. rewrite !replace_at_nth by lia. destruct (C _ Hi) as [C1 C2].
    assert (Bp := bits_nth (data p) i Hb). assert (Ed := Nat.div_mod j 2 ltac:(lia)). assert (Em := Nat.mod_upper_bound j 2 ltac:(lia)).
    replace (2 * i + 1 =? j)%nat with false by (symmetry; apply Nat.eqb_neq; lia).
    replace (2 * i =? j)%nat with false by (symmetry; apply Nat.eqb_neq; lia).
    rewrite C1, C2. destruct Bp as [->| ->]; reflexivity.
Qed.

(** *** MLT-3 *)
Lemma ones_sum x n : bits x -> Z.of_nat (ones x n) = sumZ (firstn n x).
Proof.
  intros H. unfold ones. assert (B := Forall_firstn _ n x H). induction B as [|b l Hb _ IH]; auto.
  cbn [filter sumZ fold_right]. fold (sumZ l). destruct Hb as [->| ->]; cbn [Z.eqb Pos.eqb length]; lia.
Qed.
Lemma mlt3_char p : bits (data p) ->
  exists q, coding_mlt3 p = Ok q /\ shape q = shape p /\ length (data q) = length (data p) /\
    forall i, (i < length (data p))%nat -> nth i (data q) 0 = mlt_level (ones (data p) (S i)).
Proof.
  intros Hb. unfold coding_mlt3. rewrite check_binary_bits by auto. cbn [bind]. eexists. split; [reflexivity|].
  cbn [shape data]. split; auto. rewrite map_length, coding_diff_length. split; auto. intros i Hi.
  rewrite (map_nth_lt _ _ _ 0) by (now rewrite coding_diff_length). rewrite coding_diff_nth by auto.
  rewrite <- ones_sum by auto. change (nlev PAM4) with 4. unfold mlt_level. set (n := ones _ _).
  replace (Z.of_nat n mod 4) with (Z.of_nat (n mod 4)) by (rewrite Nat2Z.inj_mod; reflexivity).
  assert (M := Nat.mod_upper_bound n 4 ltac:(lia)). destruct (n mod 4)%nat as [|[|[|[|m]]]]; try lia; reflexivity.
Qed.
Lemma ones_S x i : bits x -> (i < length x)%nat -> Z.of_nat (ones x (S i)) = Z.of_nat (ones x i) + nth i x 0.
Proof. intros. rewrite !ones_sum by auto. now apply sumZ_firstn_S. Qed.
Lemma mlt_step n : Z.abs (mlt_level (S n) - mlt_level n) = 1.
Proof.
  unfold mlt_level. assert (M := Nat.mod_upper_bound n 4 ltac:(lia)).
  assert (E : (S n mod 4 = S (n mod 4) mod 4)%nat) by (rewrite <- Nat.add_1_r, <- (Nat.add_1_r (n mod 4)); now rewrite Nat.add_mod_idemp_l by lia).
  rewrite E. destruct (n mod 4)%nat as [|[|[|[|m]]]]; try lia; reflexivity.
Qed.
Lemma mlt3_step p : bits (data p) ->
  exists q, coding_mlt3 p = Ok q /\ forall i, (i + 1 < length (data p))%nat ->
     Z.abs (nth (i + 1) (data q) 0 - nth i (data q) 0) = nth (i + 1) (data p) 0.
Proof.
  intros Hb. destruct (mlt3_char p Hb) as (q & E & _ & _ & N). exists q. split; auto. intros i Hi.
  rewrite !N by lia. rewrite Nat.add_1_r. assert (S1 := ones_S (data p) (S i) Hb ltac:(lia)).
  assert (B := bits_nth (data p) (S i) Hb). destruct B as [B|B]; rewrite B in *.
  - replace (ones (data p) (S (S i))) with (ones (data p) (S i)) by lia. lia.
  - replace (ones (data p) (S (S i))) with (S (ones (data p) (S i))) by lia. apply mlt_step.
Qed.
Lemma np_diff_nth l i : (i + 1 < length l)%nat -> nth i (np_diff l) 0 = nth (i + 1) l 0 - nth i l 0.
Proof.
  destruct l as [|x l]; simpl; intros H; [lia|]. rewrite diff_from_nth by lia. destruct i; [reflexivity|].
  cbn [Nat.eqb Nat.add nth]. rewrite Nat.sub_succ, Nat.sub_0_r. rewrite Nat.add_1_r. reflexivity.
Qed.
Lemma np_diff_length l : length (np_diff l) = (length l - 1)%nat.
Proof. destruct l; simpl; auto. rewrite diff_from_length. lia. Qed.
Lemma mlt3_roundtrip (x : list Z) : x <> [] -> bits x ->
  exists q, coding_mlt3 (vec x) = Ok (vec q) /\ decoding_mlt3 q = Ok x.
Proof.
  intros Hx Hb. assert (Hl : (0 < length x)%nat) by (destruct x; simpl; [congruence|lia]).
  destruct (mlt3_char (vec x) Hb) as (q & E & Sq & Lq & N). destruct (mlt3_step (vec x) Hb) as (q' & E' & St).
  rewrite E in E'. inversion E'; subst q'. cbn [data vec] in *.
  exists (data q). split.
  - rewrite E. f_equal. destruct q as [sh d]. cbn [shape data vec] in *. subst. unfold vec. now rewrite Lq.
  - unfold decoding_mlt3. destruct (data q) as [|y0 y] eqn:Ey; [simpl in Lq; lia|]. f_equal.
    apply (nth_ext_def 0).
    + cbn [length]. rewrite map_length, np_diff_length. simpl in *. lia.
    + cbn [length]. rewrite map_length, np_diff_length. intros i Hi. destruct i.
      * assert (N0 := N 0%nat Hl). cbn [nth] in N0 |- *. rewrite N0.
        assert (S1 := ones_S x 0 Hb Hl). change (Z.of_nat (ones x 0)) with 0 in S1.
        assert (B := bits_nth x 0 Hb). destruct B as [B|B]; rewrite B in *.
        { now replace (ones x 1) with 0%nat by lia. } { now replace (ones x 1) with 1%nat by lia. }
      * cbn [nth]. rewrite (map_nth_lt _ _ _ 0) by (rewrite np_diff_length; cbn [length] in *; lia).
        rewrite np_diff_nth by (cbn [length] in *; lia). replace (S i) with (i + 1)%nat by lia. apply St. cbn [length] in *. lia.
Qed.

(** *** Differential Manchester *)
Definition dcell (l b : Z) : list Z := [l; if b =? 1 then l else 1 - l].
Fixpoint dm_cells (l : Z) (x : list Z) : list (list Z) :=
  match x with [] => [] | b :: x' => dcell l b :: dm_cells (if b =? 1 then 1 - l else l) x' end.
Lemma dm_loop x : bits x -> forall k s, 
  map_res (fun ib => np_get (dm_table (fst ib)) (snd ib))
    (combine (map2 (fun i s => (Z.of_nat i + s) mod 2) (seq k (length x)) (cumsum s (0 :: removelast (map (fun b => 1 - b) x)))) (map (fun b => 1 - b) x))
  = Ok (dm_cells ((Z.of_nat k + s) mod 2) x).
Proof.
  intros Hb. induction Hb as [|b x Hb Hx IH]; intros k s; [reflexivity|].
  cbn [length seq map]. cbn [cumsum map2]. rewrite Z.add_0_r.
  assert (M : (Z.of_nat k + s) mod 2 = 0 \/ (Z.of_nat k + s) mod 2 = 1) by lia.
  cbn [combine map_res fst snd].
  assert (G : np_get (dm_table ((Z.of_nat k + s) mod 2)) (1 - b) = Ok (dcell ((Z.of_nat k + s) mod 2) b)).
  { destruct M as [-> | ->], Hb as [->| ->]; reflexivity. }
  rewrite G. cbn [bind].
  destruct x as [|b2 x2]; [reflexivity|].
  change (removelast (map (fun b0 => 1 - b0) (b :: b2 :: x2))) with ((1 - b) :: removelast (map (fun b0 => 1 - b0) (b2 :: x2))).
  cbn [dm_cells].
  specialize (IH (S k) (s + (1 - b))).
  cbn [cumsum] in IH. rewrite Z.add_0_r in IH.
  change (removelast ((1 - b) :: map (fun b0 => 1 - b0) (b2 :: x2))) with ((1 - b) :: removelast (map (fun b0 => 1 - b0) (b2 :: x2))).
  cbn [cumsum]. rewrite IH. cbn [bind]. do 2 f_equal.
  replace ((Z.of_nat (S k) + (s + (1 - b))) mod 2) with (if b =? 1 then 1 - (Z.of_nat k + s) mod 2 else (Z.of_nat k + s) mod 2); [reflexivity|].
  destruct Hb as [->| ->]; cbn [Z.eqb Pos.eqb]; lia.
Qed.
Lemma dm_cells_rows l x : Forall (fun r => length r = 2%nat) (dm_cells l x).
Proof. revert l; induction x; simpl; constructor; auto. Qed.
Lemma dm_cells_len l x : length (dm_cells l x) = length x.
Proof. revert l; induction x; simpl; auto. Qed.
Lemma dm_enc p : bits (data p) -> shape p <> [] -> wf_nda p ->
  coding_differential_manchester p = Ok (mk_nda (set_last_dim (shape p) (2 * last_dim (shape p))) (concat (dm_cells 0 (data p)))).
Proof.
  intros Hb Hs Hw. unfold coding_differential_manchester. rewrite check_binary_bits by auto. cbn [bind].
  destruct (shape p) as [|s0 sh] eqn:E; [congruence|]. rewrite <- E in *. clear E.
  rewrite map_length. rewrite (dm_loop (data p) Hb 0 0). cbn [bind]. apply reshape_ok.
  rewrite (concat_length_const 2) by apply dm_cells_rows. rewrite dm_cells_len, size_set_last.
  unfold wf_nda in Hw. rewrite Hw, (size_last _ Hs). lia.
Qed.
Lemma dm_cells_bits l x : isbit l -> bits (concat (dm_cells l x)).
Proof.
  revert l; induction x as [|b x IH]; intros l Hl; [constructor|]. cbn [dm_cells concat]. apply bits_app. split.
  - unfold dcell. constructor; auto. constructor; [|constructor]. destruct (b =? 1); auto. destruct Hl as [->| ->]; [right|left]; reflexivity.
  - apply IH. destruct (b =? 1); auto. destruct Hl as [->| ->]; [right|left]; reflexivity.
Qed.
Lemma dm_dec p : bits (data p) -> shape p <> [] -> wf_nda p -> Nat.even (last_dim (shape p)) = true ->
  decoding_differential_manchester p = Ok (mk_nda (set_last_dim (shape p) (last_dim (shape p) / 2))
     (map (fun pr => 1 - Z.abs (nth 1 pr 0 - nth 0 pr 0)) (chunks 2 (data p)))).
Proof.
  intros Hb Hs Hw He. unfold decoding_differential_manchester. rewrite check_binary_bits by auto. cbn [bind].
  destruct (shape p) as [|s0 sh] eqn:E; [congruence|]. rewrite <- E in *. clear E.
  apply Nat.even_spec in He. destruct He as [k Hk]. unfold wf_nda in Hw. rewrite (size_last _ Hs), Hk in Hw.
  assert (Hl : length (data p) = (size (removelast (shape p)) * k * 2)%nat) by (rewrite Hw; lia).
  unfold reshape_rows. cbn [Nat.eqb]. rewrite Hl, Nat.mod_mul by lia. cbn [Nat.eqb bind].
  apply reshape_ok. rewrite map_length, chunks_count, size_set_last, Hl, Nat.div_mul, Hk by lia.
  rewrite (Nat.mul_comm 2 k), Nat.div_mul by lia. reflexivity.
Qed.
Lemma dm_decode_cells l x : isbit l -> bits x -> map (fun pr => 1 - Z.abs (nth 1 pr 0 - nth 0 pr 0)) (dm_cells l x) = x.
Proof.
  intros Hl Hb. revert l Hl; induction Hb as [|b x Hb _ IH]; intros l Hl; auto. cbn [dm_cells map]. rewrite IH.
  - f_equal. unfold dcell. cbn [nth]. destruct Hb as [->| ->]; cbn [Z.eqb Pos.eqb]; destruct Hl as [->| ->]; reflexivity.
  - destruct (b =? 1); auto. destruct Hl as [->| ->]; [right|left]; reflexivity.
Qed.
Lemma dm_cells_inv l x : map (map (fun v => 1 - v)) (dm_cells l x) = dm_cells (1 - l) x.
Proof.
  revert l; induction x as [|b x IH]; intros l; auto. cbn [dm_cells map]. rewrite IH. f_equal.
  - unfold dcell. cbn [map]. destruct (b =? 1); reflexivity.
  - destruct (b =? 1); reflexivity.
Qed.
Lemma concat_map_map {A B} (f : A -> B) m : map f (concat m) = concat (map (map f) m).
Proof. symmetry. rewrite concat_map. reflexivity. Qed.
Lemma dm_roundtrip p (inverted : bool) : bits (data p) -> shape p <> [] -> wf_nda p ->
  exists q, coding_differential_manchester p = Ok q /\
    decoding_differential_manchester (if inverted then mk_nda (shape q) (map (fun v => 1 - v) (data q)) else q) = Ok p.
Proof.
  intros Hb Hs Hw. rewrite dm_enc by auto. eexists. split; [reflexivity|]. cbn [shape data].
  set (l := if inverted then 1 else 0). assert (Hl : isbit l) by (unfold l; destruct inverted; [right|left]; reflexivity).
  replace (if inverted then _ else _) with (mk_nda (set_last_dim (shape p) (2 * last_dim (shape p))) (concat (dm_cells l (data p)))).
  2:{ unfold l. destruct inverted; auto. rewrite concat_map_map, dm_cells_inv. reflexivity. }
  rewrite dm_dec; cbn [shape data].
  - rewrite set_last_last, set_last_set by auto. rewrite (Nat.mul_comm 2), Nat.div_mul, set_last_same by (auto; lia).
    rewrite chunks_of_concat by (try apply dm_cells_rows; lia). rewrite dm_decode_cells by auto. now rewrite nda_eta.
  - now apply dm_cells_bits.
  - apply set_last_ne.
  - eapply wf_double; eauto. rewrite (concat_length_const 2) by apply dm_cells_rows. rewrite dm_cells_len. unfold wf_nda in Hw. lia.
  - rewrite set_last_last by auto. apply even_double.
Qed.
(** line properties *)
Lemma dm_line_cells l x i : isbit l -> bits x ->
  let y := concat (dm_cells l x) in
  ((i < length x)%nat -> Z.abs (nth (2 * i + 1) y 0 - nth (2 * i) y 0) = 1 - nth i x 0) /\
  ((i + 1 < length x)%nat -> nth (2 * i + 2) y 0 = 1 - nth (2 * i + 1) y 0).
Proof.
  intros Hl Hb. revert l i Hl; induction Hb as [|b x Hb Hx IH]; intros l i Hl y; [split; simpl; lia|].
  assert (Hl' : isbit (if b =? 1 then 1 - l else l)) by (destruct (b =? 1); auto; destruct Hl as [->| ->]; [right|left]; reflexivity).
  unfold y. cbn [dm_cells concat]. unfold dcell. cbn [app length]. destruct i.
  - cbn [Nat.mul Nat.add nth]. split.
    + intros _. destruct Hb as [->| ->]; cbn [Z.eqb Pos.eqb]; destruct Hl as [->| ->]; reflexivity.
    + intros H. destruct x as [|b2 x2]; [simpl in H; lia|]. cbn [dm_cells concat]. unfold dcell. cbn [app nth].
      destruct (b =? 1); lia.
  - replace (2 * S i)%nat with (S (S (2 * i))) by lia. cbn [Nat.add nth]. destruct (IH _ i Hl') as [I1 I2]. split; intros; [apply I1|apply I2]; lia.
Qed.
Lemma dm_line p : bits (data p) -> shape p <> [] -> wf_nda p ->
  exists q, coding_differential_manchester p = Ok q /\ length (data q) = (2 * length (data p))%nat /\ bits (data q) /\
   (forall i, (i < length (data p))%nat -> Z.abs (nth (2 * i + 1) (data q) 0 - nth (2 * i) (data q) 0) = 1 - nth i (data p) 0) /\
   (forall i, (i + 1 < length (data p))%nat -> nth (2 * i + 2) (data q) 0 = 1 - nth (2 * i + 1) (data q) 0) /\
   (forall n, (n + 2 < length (data q))%nat -> ~ (nth n (data q) 0 = nth (n + 1) (data q) 0 /\ nth (n + 1) (data q) 0 = nth (n + 2) (data q) 0)).
Proof.
  intros Hb Hs Hw. rewrite dm_enc by auto. eexists. split; [reflexivity|]. cbn [data].
  assert (L : length (concat (dm_cells 0 (data p))) = (2 * length (data p))%nat).
  { rewrite (concat_length_const 2) by apply dm_cells_rows. rewrite dm_cells_len. lia. }
  split; auto. split; [apply dm_cells_bits; left; auto|].
  assert (H := fun i => dm_line_cells 0 (data p) i (or_introl eq_refl) Hb). cbv zeta in H.
  split; [intros i Hi; now apply H|]. split; [intros i Hi; now apply H|].
  intros n Hn [E1 E2]. rewrite L in Hn. destruct (Nat.Even_or_Odd n) as [[k ->]|[k ->]].
  - destruct (H k) as [_ H2]. specialize (H2 ltac:(lia)). lia.
  - destruct (H k) as [_ H2]. specialize (H2 ltac:(lia)). replace (2 * k + 1 + 1)%nat with (2 * k + 2)%nat in E1 by lia. lia.
Qed.
