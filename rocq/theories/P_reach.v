(** Proofs on how far wrong line symbols and wrong decisions reach. *)
From Verif Require Import Py PyQ B_list B_qc M_aux S_aux P_aux M_coding S_coding P_coding P_bipolar M_linear S_linear P_linear M_symbol P_symbol S_rx M_slicer P_slicer M_filter S_filter P_filter P_eq P_viterbierr S_reach.
From Coq Require Import QArith.
Open Scope Z_scope.

(** *** Counting wrong positions *)
Lemma filter_length_le {A} (f : A -> bool) l : (length (filter f l) <= length l)%nat.
Proof. induction l as [|a l IH]; cbn [filter length]; [lia|]. destruct (f a); cbn [length]; lia. Qed.
Definition wrongs (u v : list Z) : list nat := filter (fun i => negb (nth i u 0 =? nth i v 0)) (seq 0 (length u)).
Lemma wrongs_in u v i : In i (wrongs u v) <-> (i < length u)%nat /\ nth i u 0 <> nth i v 0.
Proof. unfold wrongs. rewrite filter_In, in_seq. destruct (Z.eqb_spec (nth i u 0) (nth i v 0)); cbn [negb]; intuition (try lia; try discriminate). Qed.
Lemma wrongs_nodup u v : NoDup (wrongs u v). Proof. apply NoDup_filter, seq_NoDup. Qed.
Lemma hdist_wrongs u v : hdist u v = length (wrongs u v). Proof. reflexivity. Qed.
Lemma hdist_within u v d d' : (forall i, (i < length d)%nat -> nth i d 0 <> nth i d' 0 -> (i < length u)%nat /\ nth i u 0 <> nth i v 0) -> (hdist d d' <= hdist u v)%nat.
Proof. intros H. rewrite !hdist_wrongs. apply NoDup_incl_length; [apply wrongs_nodup|]. intros i A. apply wrongs_in in A. apply wrongs_in. apply H; apply A. Qed.
Lemma hdist_spread u v d d' :
  (forall i, (i < length d)%nat -> nth i d 0 <> nth i d' 0 -> (i < length u)%nat /\ nth i u 0 <> nth i v 0 \/ exists j, i = S j /\ (j < length u)%nat /\ nth j u 0 <> nth j v 0) ->
  (hdist d d' <= 2 * hdist u v)%nat.
Proof.
  intros H. rewrite !hdist_wrongs. replace (2 * length (wrongs u v))%nat with (length (wrongs u v ++ map S (wrongs u v))) by (rewrite app_length, map_length; lia).
  apply NoDup_incl_length; [apply wrongs_nodup|]. intros i A. apply wrongs_in in A. apply in_or_app. destruct (H i (proj1 A) (proj2 A)) as [B|(j & -> & B)].
  - left. now apply wrongs_in.
  - right. apply in_map. now apply wrongs_in.
Qed.
Lemma hdist_listed u v l : NoDup l -> (forall i, (i < length u)%nat /\ nth i u 0 <> nth i v 0 <-> In i l) -> hdist u v = length l.
Proof.
  intros N H. rewrite hdist_wrongs. apply Nat.le_antisymm; (apply NoDup_incl_length; [assumption || apply wrongs_nodup|]); intros i A; [apply H; now apply wrongs_in|apply wrongs_in; now apply H].
Qed.

(** *** Differential code *)
Lemma diff_reach c y r : y <> [] -> length r = length y -> let m := nlev c in
  exists d d', decoding_differential c (vec y) = Ok (vec d) /\ decoding_differential c (vec r) = Ok (vec d') /\ length d = length y /\ length d' = length y /\
    (forall i, (i < length y)%nat -> (nth i d 0 = nth i d' 0 <-> slip m y r i = slip_before m y r i)) /\
    (hdist d d' <= 2 * hdist y r)%nat.
Proof.
  intros Ny Lr m. assert (Lp : (0 < length y)%nat) by (destruct y; [congruence|cbn; lia]).
  assert (SP : forall z, length z = length y -> exists d, decoding_differential c (vec z) = Ok (vec d) /\ length d = length y /\
    forall i, (i < length y)%nat -> nth i d 0 = (nth i z 0 - (if (i =? 0)%nat then 0 else nth (i - 1) z 0)) mod m).
  { intros z Lz. destruct (decoding_diff_spec c (vec z)) as (q & E & Sq & Lq & N); [discriminate| |cbn; lia|].
    - unfold wf_nda, vec, size. cbn. lia.
    - cbn [vec data shape] in *. exists (data q). split; [|split; [lia|]].
      + rewrite E. f_equal. destruct q as [sh dt]. cbn [shape data] in *. subst sh. unfold vec. now rewrite Lq.
      + intros i Hi. rewrite N by lia. cbn [last_dim last]. rewrite Nat.mod_small by lia. reflexivity. }
  destruct (SP y eq_refl) as (d & E & Ld & N). destruct (SP r Lr) as (d' & E' & Ld' & N').
  assert (M : 0 < m) by (unfold m; pose proof (nlev_pos c); lia).
  assert (X : forall i, (i < length y)%nat -> (nth i d 0 = nth i d' 0 <-> slip m y r i = slip_before m y r i)).
  { intros i Hi. rewrite N, N' by auto. unfold slip_before, slip. destruct (Nat.eqb_spec i 0) as [->|Hz].
    - rewrite !Z.sub_0_r. rewrite (Zminus_mod (nth 0 r 0)). split; intros H.
      + rewrite H, Z.sub_diag. apply Zmod_0_l.
      + rewrite <- Zminus_mod in H. apply Z.mod_divide in H; [|lia]. destruct H as (k & H). replace (nth 0 r 0) with (nth 0 y 0 + k * m) by lia. symmetry. apply Z_mod_plus_full.
    - split; intros H.
      + apply (f_equal (fun v => (v + (nth (i-1) r 0 - nth i y 0)) mod m)) in H. rewrite !Zplus_mod_idemp_l in H.
        replace (nth i y 0 - nth (i - 1) y 0 + (nth (i - 1) r 0 - nth i y 0)) with (nth (i-1) r 0 - nth (i-1) y 0) in H by lia.
        replace (nth i r 0 - nth (i - 1) r 0 + (nth (i - 1) r 0 - nth i y 0)) with (nth i r 0 - nth i y 0) in H by lia. now symmetry.
      + apply (f_equal (fun v => (v + (nth i y 0 - nth (i-1) r 0)) mod m)) in H. rewrite !Zplus_mod_idemp_l in H.
        replace (nth i r 0 - nth i y 0 + (nth i y 0 - nth (i - 1) r 0)) with (nth i r 0 - nth (i - 1) r 0) in H by lia.
        replace (nth (i - 1) r 0 - nth (i - 1) y 0 + (nth i y 0 - nth (i - 1) r 0)) with (nth i y 0 - nth (i - 1) y 0) in H by lia. now symmetry. }
  exists d, d'. repeat (split; [assumption|]). apply hdist_spread. intros i Hi D. rewrite Ld in Hi.
  destruct (Z.eq_dec (nth i y 0) (nth i r 0)) as [e|ne]; [|left; split; [lia|exact ne]].
  right. destruct i as [|j]; [exfalso|exists j; split; [reflexivity|split; [lia|]]].
  - apply D. apply X; [lia|]. unfold slip_before, slip. cbn [Nat.eqb]. rewrite <- e, Z.sub_diag. apply Zmod_0_l.
  - intros e'. apply D. apply X; [lia|]. unfold slip_before, slip. cbn [Nat.eqb]. rewrite Nat.sub_succ, Nat.sub_0_r. now rewrite <- e, <- e', !Z.sub_diag.
Qed.
Lemma diff_single c y p e d d' : (S p < length y)%nat -> 0 <= nth p y 0 < nlev c -> 0 <= e < nlev c -> e <> nth p y 0 ->
  decoding_differential c (vec y) = Ok (vec d) -> decoding_differential c (vec (replace_at p e y)) = Ok (vec d') -> hdist d d' = 2%nat.
Proof.
  intros Hp Hy He Ne E E'. assert (Ny : y <> []) by (destruct y; [cbn in Hp; lia|discriminate]).
  destruct (diff_reach c y (replace_at p e y) Ny (replace_at_length p e y)) as (d1 & d1' & E1 & E1' & L & L' & X & _).
  rewrite E in E1. rewrite E' in E1'. injection E1 as _ <-. injection E1' as _ <-.
  assert (SL : forall i, (i < length y)%nat -> slip (nlev c) y (replace_at p e y) i = if (i =? p)%nat then (e - nth p y 0) mod nlev c else 0).
  { intros i Hi. unfold slip. rewrite replace_at_nth by auto. destruct (Nat.eqb_spec i p) as [->|]; [reflexivity|]. rewrite Z.sub_diag. apply Zmod_0_l. }
  assert (NZ : (e - nth p y 0) mod nlev c <> 0).
  { intros H. apply Z.mod_divide in H; [|lia]. destruct H as (k & H). assert (k = 0) by nia. lia. }
  rewrite (hdist_listed d d' [p; S p]); [reflexivity| |].
  - constructor; [cbn; lia|]. constructor; [cbn; tauto|constructor].
  - intros i. rewrite L. cbn [In]. split.
    + intros (Hi & D). destruct (Nat.eq_dec p i) as [|n1]; [now left|]. destruct (Nat.eq_dec (S p) i) as [|n2]; [right; now left|]. exfalso. apply D. apply X; [exact Hi|].
      unfold slip_before. rewrite SL by auto. destruct (Nat.eqb_spec i p); [lia|]. destruct (Nat.eqb_spec i 0); [reflexivity|]. rewrite SL by lia. destruct (Nat.eqb_spec (i - 1) p); [lia|reflexivity].
    + intros [<-|[<-|[]]]; (split; [lia|]); rewrite X by lia; unfold slip_before; rewrite SL by lia.
      * rewrite Nat.eqb_refl. destruct (Nat.eqb_spec p 0); [exact NZ|]. rewrite SL by lia. destruct (Nat.eqb_spec (p - 1) p); [lia|exact NZ].
      * destruct (Nat.eqb_spec (S p) p); [lia|]. destruct (Nat.eqb_spec (S p) 0); [lia|]. rewrite Nat.sub_succ, Nat.sub_0_r, SL by lia. rewrite Nat.eqb_refl. congruence.
Qed.

(** *** Gray code *)
Lemma hdist_rows (f : Z -> list Z) (w : nat) : (forall s, length (f s) = w) -> forall y r, length r = length y ->
  (forall i, (i < length y)%nat -> hdist (f (nth i y 0)) (f (nth i r 0)) = if nth i y 0 =? nth i r 0 then 0%nat else 1%nat) ->
  hdist (concat (map f y)) (concat (map f r)) = hdist y r.
Proof.
  intros F. induction y as [|a y IH]; intros [|b r] L H; try discriminate; [reflexivity|]. injection L as L. cbn [map concat]. rewrite hdist_app by now rewrite !F.
  rewrite hdist_cons, IH; [|exact L|intros i Hi; apply (H (S i)); cbn; lia]. f_equal. apply (H 0%nat). cbn; lia.
Qed.
Lemma gray_row f a b : In a [0; 1; 2; 3] -> In b [0; 1; 2; 3] -> Z.abs (b - a) <= 1 ->
  hdist (unmod_row f (map (bit_test (nth (Z.to_nat a) (get_gray_level_vec 4) 0)) (seq 0 2))) (unmod_row f (map (bit_test (nth (Z.to_nat b) (get_gray_level_vec 4) 0)) (seq 0 2))) = if a =? b then 0%nat else 1%nat.
Proof.
  intros A B. destruct f as [f1 f2 f3 f4]. cbn [In] in A, B.
  destruct A as [<-|[<-|[<-|[<-|[]]]]]; destruct B as [<-|[<-|[<-|[<-|[]]]]]; cbn; intros H; try lia; destruct f1, f2, f3, f4; vm_compute; reflexivity.
Qed.
Lemma in_four a : 0 <= a < 4 -> In a [0; 1; 2; 3]. Proof. intros H. cbn. lia. Qed.
Lemma gray_dec_two c y : length (get_levels c) = 2%nat -> Forall (fun i => 0 <= i < 2) y -> decoding_gray c (vec y) = Ok (vec y).
Proof.
  intros L H. unfold decoding_gray. rewrite L. cbn [ceil_log2]. change (1 <? ceil_log2 2)%nat with false. cbv iota. cbn [vec data shape].
  rewrite (np_take_map [0; 1] 0) by exact H. cbn [bind]. unfold vec. f_equal. f_equal. rewrite <- (map_id y) at 2. apply map_ext_in. intros a A. rewrite Forall_forall in H. specialize (H a A).
  assert (a = 0 \/ a = 1) as [->| ->] by lia; reflexivity.
Qed.
Lemma gray_reach c y r f : c <> PAM3 -> let n := Z.of_nat (length (get_levels c)) in Forall (fun i => 0 <= i < n) y -> Forall (fun i => 0 <= i < n) r -> neighbours y r ->
  (length y <> 1%nat \/ (inv_msb f = false /\ inv_lsb f = false /\ bit_order_inv f = false)) ->
  exists g g' b b', decoding_gray c (vec y) = Ok (vec g) /\ decoding_gray c (vec r) = Ok (vec g') /\ symbol2bin g n f = Ok b /\ symbol2bin g' n f = Ok b' /\ hdist b b' = hdist y r.
Proof.
  intros Nc n Hy Hr (L & Nb) Hf.
  assert (TWO : n = 2 -> length (get_levels c) = 2%nat -> exists g g' b b', decoding_gray c (vec y) = Ok (vec g) /\ decoding_gray c (vec r) = Ok (vec g') /\ symbol2bin g n f = Ok b /\ symbol2bin g' n f = Ok b' /\ hdist b b' = hdist y r).
  { intros En E2. rewrite En in *. exists y, r. do 2 eexists. split; [now apply gray_dec_two|]. split; [now apply gray_dec_two|]. split; [apply symbol2bin_one|]. split; [apply symbol2bin_one|].
    assert (B : forall l, Forall (fun i => 0 <= i < 2) l -> map (fun s => bit_test s 0) l = l).
    { intros l H. rewrite <- (map_id l) at 2. apply map_ext_in. intros a A. rewrite Forall_forall in H. specialize (H a A). assert (a = 0 \/ a = 1) as [->| ->] by lia; reflexivity. }
    rewrite !B by auto. destruct (pn_inv f); cbn [when]; [|reflexivity]. unfold inv_all. clear - L. revert r L. induction y as [|a y IH]; intros [|b r] L; try discriminate; [reflexivity|]. injection L as L. cbn [map].
    rewrite !hdist_cons, IH by exact L. destruct (Z.eqb_spec (1 - a) (1 - b)), (Z.eqb_spec a b); lia. }
  destruct c; try (apply TWO; reflexivity); [now elim Nc|]. clear TWO. unfold n in *. cbn [get_levels length] in Hy, Hr. change (Z.of_nat 4) with 4 in *.
  assert (DEC : forall l, Forall (fun i => 0 <= i < 4) l -> decoding_gray PAM4 (vec l) = Ok (vec (map (fun i => nth (Z.to_nat i) (get_gray_level_vec 4) 0) l))).
  { intros l H. unfold decoding_gray. cbn [get_levels length]. change (1 <? ceil_log2 4)%nat with true. cbv iota. cbn [vec data shape]. rewrite (np_take_map (get_gray_level_vec 4) 0) by exact H. cbn [bind]. unfold vec. now rewrite map_length. }
  set (G := fun i => nth (Z.to_nat i) (get_gray_level_vec 4) 0) in *.
  exists (map G y), (map G r). do 2 eexists. split; [now apply DEC|]. split; [now apply DEC|]. change (Z.of_nat (length (get_levels PAM4))) with (2 ^ Z.of_nat 2).
  split; [apply symbol2bin_rows; [lia|rewrite map_length; exact Hf]|]. split; [apply symbol2bin_rows; [lia|rewrite map_length, L; exact Hf]|].
  rewrite !map_map. apply (hdist_rows (fun s => unmod_row f (map (bit_test (G s)) (seq 0 2))) 2); [|exact L|].
  - intros s. rewrite unmod_row_length. reflexivity.
  - intros i Hi. apply gray_row; [apply in_four, (Forall_nth_lt _ _ _ 0 Hy); lia|apply in_four, (Forall_nth_lt _ _ _ 0 Hr); lia|apply Nb].
Qed.

(** *** Manchester codes: cell by cell *)
Lemma hits_cases y r i : hits y r i = ((if (nth (i * 2) y 0 =? nth (i * 2) r 0)%Z then 0 else 1) + (if (nth (i * 2 + 1) y 0 =? nth (i * 2 + 1) r 0)%Z then 0 else 1))%nat.
Proof. unfold hits, block. cbn [seq map]. rewrite !Nat.add_0_r. rewrite !hdist_cons. unfold hdist at 1. cbn [length seq filter]. lia. Qed.
Lemma cell_nth (l : list Z) i : (i < length l / 2)%nat -> nth i (chunks 2 l) [] = [nth (i * 2) l 0; nth (i * 2 + 1) l 0].
Proof. intros H. rewrite chunk_block by lia. unfold block. cbn [seq map]. now rewrite Nat.add_0_r. Qed.
Lemma half n : (2 * n / 2 = n)%nat. Proof. rewrite Nat.mul_comm. apply Nat.div_mul. lia. Qed.
Lemma vec_wf {A} (l : list A) : wf_nda (vec l). Proof. unfold wf_nda, vec, size. cbn. lia. Qed.
Lemma manch_reach x r : bits x -> bits r -> length r = (2 * length x)%nat ->
  exists y v, coding_manchester (vec x) = Ok (vec y) /\ decoding_manchester (vec r) = Ok (vec v) /\ length v = length x /\
    forall i, (i < length x)%nat -> nth i v 0%Q = match hits y r i with 0%nat => inject_Z (nth i x 0) | 1%nat => 1 # 2 | _ => inject_Z (1 - nth i x 0) end.
Proof.
  intros Bx Br L. exists (concat (map mcell x)), (map manch_value (chunks 2 r)).
  assert (LC : length (chunks 2 r) = length x) by (rewrite chunks_count by lia; rewrite L; apply half).
  split; [|split; [|split]].
  - rewrite manch_enc by (auto using vec_wf; discriminate). unfold vec, set_last_dim, last_dim. cbn [shape data removelast last app]. now rewrite mcells_len.
  - rewrite manch_dec; auto using vec_wf; [|discriminate|cbn [vec shape last_dim last]; rewrite L; apply even_double]. unfold vec, set_last_dim, last_dim. cbn [shape data removelast last app]. rewrite map_length, LC, L, half. reflexivity.
  - now rewrite map_length.
  - intros i Hi. rewrite (map_nth_lt _ _ _ []) by lia. rewrite cell_nth by (rewrite L, half; exact Hi). rewrite hits_cases.
    rewrite !mcells_nth by lia. replace (i * 2 / 2)%nat with i by (now rewrite Nat.div_mul). replace ((i * 2 + 1) / 2)%nat with i by (apply Nat.div_unique with 1%nat; lia).
    replace (Nat.even (i * 2)) with true by (symmetry; apply Nat.even_spec; exists i; lia). replace (Nat.even (i * 2 + 1)) with false by (rewrite Nat.even_add, Nat.even_mul; cbn; now rewrite orb_true_r).
    pose proof (bits_nth x i Bx) as [->| ->]; pose proof (bits_nth r (i * 2) Br) as [->| ->]; pose proof (bits_nth r (i * 2 + 1) Br) as [->| ->]; reflexivity.
Qed.
Lemma dm_reach x r : bits x -> bits r -> length r = (2 * length x)%nat ->
  exists y v, coding_differential_manchester (vec x) = Ok (vec y) /\ decoding_differential_manchester (vec r) = Ok (vec v) /\ length v = length x /\
    forall i, (i < length x)%nat -> nth i v 0 = if (hits y r i =? 1)%nat then 1 - nth i x 0 else nth i x 0.
Proof.
  intros Bx Br L. destruct (dm_line (vec x) Bx ltac:(discriminate) (vec_wf x)) as (q & E & Lq & Bq & C & _). cbn [vec data] in Lq, C.
  assert (LC : length (chunks 2 r) = length x) by (rewrite chunks_count by lia; rewrite L; apply half).
  exists (data q), (map (fun pr => 1 - Z.abs (nth 1 pr 0 - nth 0 pr 0)) (chunks 2 r)). split; [|split; [|split]].
  - rewrite E. f_equal. pose proof (dm_enc (vec x) Bx ltac:(discriminate) (vec_wf x)) as E2. rewrite E in E2. injection E2 as ->. unfold vec, set_last_dim, last_dim. cbn [shape data removelast last app]. f_equal. f_equal. cbn [data] in Lq. now rewrite Lq.
  - rewrite dm_dec; auto using vec_wf; [|discriminate|cbn [vec shape last_dim last]; rewrite L; apply even_double]. unfold vec, set_last_dim, last_dim. cbn [shape data removelast last app]. rewrite map_length, LC, L, half. reflexivity.
  - now rewrite map_length.
  - intros i Hi. rewrite (map_nth_lt _ _ _ []) by lia. rewrite cell_nth by (rewrite L, half; exact Hi). rewrite hits_cases. cbn [nth]. specialize (C i Hi). rewrite (Nat.mul_comm i 2).
    pose proof (bits_nth (data q) (2 * i) Bq) as [Y1|Y1]; pose proof (bits_nth (data q) (2 * i + 1) Bq) as [Y2|Y2]; rewrite Y1, Y2 in C |- *;
    pose proof (bits_nth r (2 * i) Br) as [R1|R1]; pose proof (bits_nth r (2 * i + 1) Br) as [R2|R2]; rewrite R1, R2; cbn [Z.eqb Pos.eqb Nat.add Nat.eqb]; lia.
Qed.

(** *** Ternary codes *)
Lemma ternary_nth r i : ternary r -> (i < length r)%nat -> nth i r 0 = 0 \/ nth i r 0 = 1 \/ nth i r 0 = 2.
Proof. intros H Hi. exact (Forall_nth_lt _ _ _ 0 H Hi). Qed.
Lemma bipolar_reach x r : bits x -> ternary r -> length r = length x ->
  exists y v, coding_bipolar (vec x) = Ok (vec y) /\ decoding_bipolar (vec r) = vec v /\ length y = length x /\ length v = length x /\ bits v /\
    (forall i, (i < length x)%nat -> (nth i v 0 = nth i x 0 <-> (nth i r 0 = 1 <-> nth i y 0 = 1))) /\ (hdist x v <= hdist y r)%nat.
Proof.
  intros Bx Tr L. exists (ami 0 x), (map (fun v => Z.abs (v - 1)) r).
  assert (X : forall i, (i < length x)%nat -> (nth i (map (fun v => Z.abs (v - 1)) r) 0 = nth i x 0 <-> (nth i r 0 = 1 <-> nth i (ami 0 x) 0 = 1))).
  { intros i Hi. rewrite (map_nth_lt _ _ _ 0) by lia. rewrite ami_nth by auto. destruct (ternary_nth r i Tr ltac:(lia)) as [->|[->| ->]]; pose proof (bits_nth x i Bx) as [->| ->]; cbn [Z.eqb Pos.eqb]; try destruct (Nat.even _); intuition (try lia). }
  split; [rewrite bipolar_enc by exact Bx; unfold vec; now rewrite ami_length|]. split; [unfold decoding_bipolar, vec; cbn [shape data]; now rewrite map_length|]. split; [apply ami_length|]. split; [now rewrite map_length|]. split; [|split; [exact X|]].
  - apply Forall_forall. intros v V. apply in_map_iff in V. destruct V as (a & <- & A). unfold ternary in Tr. rewrite Forall_forall in Tr. destruct (Tr a A) as [->|[->| ->]]; [right|left|right]; reflexivity.
  - apply hdist_within. intros i Hi D. rewrite ami_length. split; [exact Hi|]. intros e. apply D. symmetry. apply X; [exact Hi|]. now rewrite e.
Qed.
Lemma mlt_reach x r : x <> [] -> bits x -> ternary r -> length r = length x ->
  exists y v, coding_mlt3 (vec x) = Ok (vec y) /\ decoding_mlt3 r = Ok v /\ length v = length x /\ ternary v /\ (hdist x v <= 2 * hdist y r)%nat.
Proof.
  intros Nx Bx Tr L. destruct (mlt3_roundtrip x Nx Bx) as (y & E & D). assert (Lx : (0 < length x)%nat) by (destruct x; [congruence|cbn; lia]).
  assert (SP : forall z w, decoding_mlt3 z = Ok w -> length w = length z /\ forall i, (i < length z)%nat -> nth i w 0 = if (i =? 0)%nat then (if nth 0 z 0 =? 1 then 1 else 0) else Z.abs (nth i z 0 - nth (i - 1) z 0)).
  { intros z w H. unfold decoding_mlt3 in H. destruct z as [|a z]; [discriminate|]. remember (np_diff (a :: z)) as dz eqn:Dz. injection H as <-. subst dz. split; [cbn [length]; rewrite map_length, np_diff_length; cbn; lia|].
    intros i Hi. destruct i as [|i]; [reflexivity|]. cbn [Nat.eqb]. rewrite Nat.sub_succ, Nat.sub_0_r. change (nth (S i) ((if a =? 1 then 1 else 0) :: map Z.abs (np_diff (a :: z))) 0) with (nth i (map Z.abs (np_diff (a :: z))) 0).
    rewrite (map_nth_lt _ _ _ 0) by (rewrite np_diff_length; cbn [length] in *; lia). rewrite np_diff_nth by lia. now rewrite Nat.add_1_r. }
  assert (exists v, decoding_mlt3 r = Ok v) as (v & Ev) by (unfold decoding_mlt3; destruct r; [cbn in L; lia|eauto]).
  destruct (SP y x D) as (Ly & Ny). destruct (SP r v Ev) as (Lv & Nv). exists y, v. split; [exact E|]. split; [exact Ev|]. split; [lia|]. split.
  - apply Forall_forall. intros a A. apply (In_nth _ _ 0) in A. destruct A as (i & Hi & <-). rewrite Nv by lia. destruct (Nat.eqb_spec i 0); [destruct (nth 0 r 0 =? 1); auto|].
    destruct (ternary_nth r i Tr ltac:(lia)) as [->|[->| ->]]; destruct (ternary_nth r (i - 1) Tr ltac:(lia)) as [->|[->| ->]]; cbn; auto.
  - apply hdist_spread. intros i Hi W. destruct (Z.eq_dec (nth i y 0) (nth i r 0)) as [e|ne]; [|left; split; [lia|exact ne]]. right. rewrite Ny, Nv in W by lia. destruct i as [|j].
    + exfalso. apply W. cbn [Nat.eqb]. now rewrite e.
    + exists j. split; [reflexivity|]. split; [lia|]. intros e'. apply W. cbn [Nat.eqb]. rewrite Nat.sub_succ, Nat.sub_0_r. now rewrite e, e'.
Qed.

(** *** Linear block codes *)
Lemma hdist_blocks n : (0 < n)%nat -> forall B u v, length u = (B * n)%nat -> hdist u v = fold_right Nat.add 0%nat (map (fun b => hdist (block n b u) (block n b v)) (seq 0 B)).
Proof.
  intros Hn B. induction B as [|B IH]; intros u v L; [destruct u; [reflexivity|discriminate]|].
  assert (Sp : forall w, hdist u w = (hdist (firstn (B * n) u) w + hdist (block n B u) (block n B w))%nat).
  { intros w. unfold hdist. rewrite block_length, firstn_length, Nat.min_l by (rewrite L; lia). rewrite L. replace (S B * n)%nat with (B * n + n)%nat by lia. rewrite seq_app, filter_app, app_length. f_equal.
    - f_equal. apply filter_ext_in. intros i Hi. apply in_seq in Hi. now rewrite nth_firstn by lia.
    - rewrite Nat.add_0_l, filter_seq_shift, map_length. f_equal. apply filter_ext_in. intros i Hi. apply in_seq in Hi. now rewrite !block_nth by lia. }
  rewrite Sp, IH with (v := v) by (rewrite firstn_length; nia). rewrite seq_S, map_app. cbn [map]. rewrite fold_right_app. cbn [fold_right]. rewrite Nat.add_0_l.
  assert (FA : forall l a, fold_right Nat.add a l = (fold_right Nat.add 0 l + a)%nat) by (induction l as [|c l IHl]; intros a; cbn; [reflexivity|rewrite IHl; lia]). rewrite (FA _ (hdist _ _ + 0)%nat). rewrite Nat.add_0_r. f_equal. f_equal.
  apply map_ext_in. intros b Hb. apply in_seq in Hb. f_equal. unfold block. apply map_ext_in. intros i Hi. apply in_seq in Hi. now rewrite nth_firstn by nia.
Qed.
Lemma linear_reach k n G t x r : (0 < k)%nat -> (0 < n)%nat -> bits x -> bits r -> bits (data G) -> shape G = [k; n] -> wf_nda G ->
  (forall u v, length u = k -> bits u -> length v = k -> bits v -> u <> v -> (2 * t + 1 <= hdist (codeword k n (data G) u) (codeword k n (data G) v))%nat) ->
  exists y, coding_linear x G = Ok y /\ (length r = length y -> exists d, decoding_linear r G = Ok d /\ (length x <= length d < length x + k)%nat /\ ((t + 1) * hdist d x <= k * hdist y r)%nat).
Proof.
  intros Hk Hn Bx Br BG SG WG D. destruct (coding_linear_spec k n x G Hk Bx BG SG WG) as (y & E & By & Ly & Ny).
  exists y. split; auto. intros Lr. destruct (decoding_linear_ep_spec k n r G Hn Br BG SG WG) as (d & p & a & _ & Ed & Ld & _ & _ & N & _).
  assert (Eq : (length r / n = nblk k (length x))%nat) by (rewrite Lr, Ly, Nat.div_mul; lia). rewrite Eq in *. set (B := nblk k (length x)) in *.
  exists d. split; auto. split.
  - rewrite Ld. assert (P := pad_len k (length x) Hk). fold B in P. pose proof (Nat.mod_upper_bound (length x) k ltac:(lia)). destruct (0 <? _)%nat eqn:Z0 in P; [apply Nat.ltb_lt in Z0|]; lia.
  - rewrite (hdist_blocks k Hk B d x Ld). rewrite (hdist_blocks n Hn B y r) by lia.
    assert (S1 : forall l, (forall b, In b l -> (b < B)%nat) -> ((t + 1) * fold_right Nat.add 0 (map (fun b => hdist (block k b d) (block k b x)) l) <= k * fold_right Nat.add 0 (map (fun b => hdist (block n b y) (block n b r)) l))%nat).
    { induction l as [|b l IH]; intros Hl; [cbn; lia|]. cbn [map fold_right]. specialize (IH (fun c Hc => Hl c (or_intror Hc))). assert (Hb : (b < B)%nat) by (apply Hl; now left). destruct (N b Hb) as (NW & _).
      assert ((t + 1) * hdist (block k b d) (block k b x) <= k * hdist (block n b y) (block n b r))%nat; [|nia].
      destruct (Nat.le_gt_cases (hdist (block n b y) (block n b r)) t) as [Le|Gt].
      - rewrite Ny in Le by auto. rewrite (corrects k n (data G) t (block k b x) (block n b r) (block k b d) D) by auto using block_length, block_bits. rewrite hdist_refl. lia.
      - assert (hdist (block k b d) (block k b x) <= k)%nat; [|nia]. pose proof (filter_length_le (fun i => negb (nth i (block k b d) 0 =? nth i (block k b x) 0)) (seq 0 (length (block k b d)))) as F. rewrite seq_length, block_length in F. unfold hdist. rewrite block_length. exact F. }
    apply S1. intros b Hb. apply in_seq in Hb. lia.
Qed.

(** *** Decision feedback *)
Lemma slicer_input_spec x ffe dfe levels phase zf zd : x <> [] -> ffe <> [] -> dfe <> [] -> slicer_levels levels <> [] ->
  (forall z, zf = Some z -> length z = length ffe) -> (forall z, zd = Some z -> length z = length dfe) ->
  exists sin sout, slicer_input (ffe_dfe x ffe (Some dfe) levels 1 phase zf zd) sin /\ equaliser_equation ffe dfe (past_ffe zf) (past_dfe dfe zd) (slicer_levels levels) 1 phase x sin sout.
Proof.
  intros Nx Nf Nd NL Hf Hd. destruct (ffe_dfe_spec x ffe dfe levels 1 phase zf zd Nx Nf Nd NL ltac:(lia) Hf Hd) as (sin & sout & zo & E & Q & _). exists sin, sout. split; [|exact Q]. rewrite E. unfold both_out. destruct (_ =? 1)%nat; reflexivity.
Qed.
Lemma dfe_recovers x x' ffe dfe levels phase zf zf' zd zd' p : x <> [] -> ffe <> [] -> dfe <> [] -> slicer_levels levels <> [] ->
  (forall z, zf = Some z -> length z = length ffe) -> (forall z, zf' = Some z -> length z = length ffe) -> (forall z, zd = Some z -> length z = length dfe) -> (forall z, zd' = Some z -> length z = length dfe) ->
  same_from p x x' ->
  exists s d s' d', slicer_input (ffe_dfe x ffe (Some dfe) levels 1 phase zf zd) s /\ decisions (slicer_levels levels) s d /\
    slicer_input (ffe_dfe x' ffe (Some dfe) levels 1 phase zf' zd') s' /\ decisions (slicer_levels levels) s' d' /\ length s = length x /\ length s' = length x /\
    forall m, (p + length ffe - 1 <= m)%nat -> (length dfe <= m)%nat -> (forall i, (m - length dfe <= i < m)%nat -> nth i d 0%Qc = nth i d' 0%Qc) ->
      forall n, (m <= n < length x)%nat -> nth n s 0%Qc = nth n s' 0%Qc /\ nth n d 0%Qc = nth n d' 0%Qc.
Proof.
  intros Nx Nf Nd NL Hf Hf' Hd Hd' (Lx & Sx). assert (Nx' : x' <> []) by (destruct x'; [destruct x; [congruence|discriminate]|discriminate]).
  destruct (slicer_input_spec x ffe dfe levels phase zf zd Nx Nf Nd NL Hf Hd) as (s & d & Es & (Ls & Ds & Q)).
  destruct (slicer_input_spec x' ffe dfe levels phase zf' zd' Nx' Nf Nd NL Hf' Hd') as (s' & d' & Es' & (Ls' & Ds' & Q')).
  exists s, d, s', d'. do 4 (split; [assumption|]). split; [exact Ls|]. split; [lia|]. intros m Hm1 Hm2 Ag.
  assert (HF : (0 < length ffe)%nat) by (destruct ffe; [congruence|cbn; lia]).
  assert (K : forall n, (m - length dfe <= n < length x)%nat -> nth n d 0%Qc = nth n d' 0%Qc /\ ((m <= n)%nat -> nth n s 0%Qc = nth n s' 0%Qc)).
  { induction n as [n IH] using (well_founded_induction lt_wf). intros Hn. destruct (Nat.lt_ge_cases n m) as [Lt|Ge]; [split; [apply Ag; lia|lia]|].
    assert (E : nth n s 0%Qc = nth n s' 0%Qc).
    { rewrite Q, Q' by lia. f_equal; [|f_equal].
      - apply tap_sum_ext. intros i Hi. unfold at_time. destruct (Z.ltb_spec (Z.of_nat n - Z.of_nat i) 0); [lia|]. symmetry. apply Sx. lia.
      - apply map_ext_in. intros j Hj. apply in_seq in Hj. f_equal. rewrite !contents_one. unfold at_time. destruct (Z.ltb_spec (Z.of_nat n - Z.of_nat (S j)) 0); [lia|]. apply IH; lia. }
    split; [|intros _; exact E]. destruct Ds as (Ld & Nd1). destruct Ds' as (Ld' & Nd1'). apply nearest_unique with (slicer_levels levels) (nth n s 0%Qc); [apply Nd1; lia|rewrite E; apply Nd1'; lia]. }
  intros n Hn. destruct (K n ltac:(lia)) as (A & B). split; [apply B; lia|exact A].
Qed.
Lemma Qcabs_sum (W : Qc) (f g : nat -> Qc) l : (0 <= W)%Qc -> (forall i, In i l -> (Qcabs (g i) <= W)%Qc) -> (Qcabs (sumQ (map (fun i => f i * g i) l)) <= sumQ (map (fun i => Qcabs (f i)) l) * W)%Qc.
Proof.
  intros HW. induction l as [|a l IH]; intros H; [cbn; rewrite Qcabs_pos by apply Qcle_refl; rewrite Qcmult_0_l; apply Qcle_refl|]. cbn [map]. rewrite !sumQ_cons. specialize (IH (fun i Hi => H i (or_intror Hi))). specialize (H a (or_introl eq_refl)).
  assert (T : (Qcabs (f a * g a + sumQ (map (fun i => f i * g i) l)) <= Qcabs (f a * g a) + Qcabs (sumQ (map (fun i => f i * g i) l)))%Qc) by apply Qcabs_triangle.
  assert (M : (Qcabs (f a * g a) <= Qcabs (f a) * W)%Qc). { rewrite Qcabs_Qcmult. rewrite !(Qcmult_comm (Qcabs (f a))). apply Qcmult_le_compat_r; [exact H|apply Qcabs_nonneg]. }
  rewrite Qcmult_plus_distr_l. qlra.
Qed.
Lemma dfe_immune s w h x md zd levels phase W : x <> [] -> h <> [] -> length s = length x -> length w = length x ->
  (forall n, (n < length x)%nat -> nth n x 0%Qc = (tap_sum (ofZ 1 :: h) md s 0 n + nth n w 0)%Qc) ->
  Forall (fun v => In v (slicer_levels levels)) s -> Forall (fun v => In v (slicer_levels levels)) md -> Forall (fun v => In v (slicer_levels levels)) zd ->
  length md = length h -> length zd = length h ->
  (forall l l', In l (slicer_levels levels) -> In l' (slicer_levels levels) -> (Qcabs (l - l') <= W)%Qc) ->
  (forall n l l', (n < length x)%nat -> In l (slicer_levels levels) -> In l' (slicer_levels levels) -> l <> l' ->
     (ofZ 2 * (Qcabs (nth n w 0) + sumQ (map Qcabs h) * W) < Qcabs (l - l'))%Qc) ->
  exists sin, slicer_input (ffe_dfe x [ofZ 1] (Some h) levels 1 phase None (Some zd)) sin /\ decisions (slicer_levels levels) sin s /\
    forall n, (length h <= n < length x)%nat -> nth n sin 0%Qc = (nth n s 0 + nth n w 0)%Qc.
Proof.
  intros Nx Nh Ls Lw X Is Im Iz Lm Lz HW Sp. assert (HX : (0 < length x)%nat) by (destruct x; [congruence|cbn; lia]).
  assert (Sn : forall n, (n < length x)%nat -> In (nth n s 0%Qc) (slicer_levels levels)) by (intros n Hn; apply (Forall_nth_lt _ _ _ 0%Qc Is); lia).
  assert (NL : slicer_levels levels <> []) by (intros Q; specialize (Sn 0%nat HX); rewrite Q in Sn; destruct Sn).
  assert (W0 : (0 <= W)%Qc). { specialize (HW _ _ (Sn 0%nat HX) (Sn 0%nat HX)). eapply Qcle_trans; [apply Qcabs_nonneg|exact HW]. }
  destruct (slicer_input_spec x [ofZ 1] h levels phase None (Some zd) Nx ltac:(discriminate) Nh NL ltac:(discriminate) ltac:(intros z [= <-]; exact Lz)) as (sin & sout & Es & (Li & (Lo & De) & E)). cbn [past_ffe past_dfe] in E.
  set (err := fun n => sumQ (map (fun i => nth i (ofZ 1 :: h) 0 * (at_time md s (Z.of_nat n - Z.of_nat i) - at_time zd sout (Z.of_nat n - Z.of_nat i)))%Qc (seq 1 (length h)))).
  assert (S1 : forall c l m n, tap_sum (ofZ 1 :: c) m l 0 n = (nth n l 0 + tap_sum (ofZ 1 :: c) m l 1 n)%Qc).
  { intros c l m n. unfold tap_sum. cbn [length]. rewrite Nat.sub_0_r, Nat.sub_succ, Nat.sub_0_r. cbn [seq map]. rewrite sumQ_cons. f_equal. cbn [nth]. change (ofZ 1) with 1%Qc. rewrite Qcmult_1_l.
    unfold at_time. destruct (Z.ltb_spec (Z.of_nat n - Z.of_nat 0) 0); [lia|]. f_equal. lia. }
  assert (A : forall n, (n < length x)%nat -> nth n sin 0%Qc = (nth n s 0 + (nth n w 0 + err n))%Qc).
  { intros n Hn. rewrite E by auto. rewrite <- (tap_sum_dfe h _ sout phase n (ofZ 1)). rewrite (S1 [] x [] n). rewrite (X n Hn), (S1 h s md n). replace (tap_sum [ofZ 1] [] x 1 n) with 0%Qc by reflexivity.
    assert (Er : err n = (tap_sum (ofZ 1 :: h) md s 1 n - tap_sum (ofZ 1 :: h) zd sout 1 n)%Qc).
    { unfold err, tap_sum. cbn [length]. rewrite Nat.sub_succ, Nat.sub_0_r. unfold Qcminus. rewrite <- (Qcmult_1_l (sumQ _)) at 1. 
      transitivity (sumQ (map (fun i => nth i (ofZ 1 :: h) 0 * at_time md s (Z.of_nat n - Z.of_nat i) + (-(1)) * (nth i (ofZ 1 :: h) 0 * at_time zd sout (Z.of_nat n - Z.of_nat i)))%Qc (seq 1 (length h)))).
      - rewrite Qcmult_1_l. apply sumQ_map_ext. intros i _. ring.
      - rewrite sumQ_map_add, sumQ_map_scale. ring. }
    rewrite Er. ring. }
  assert (SH : sumQ (map (fun i => Qcabs (nth i (ofZ 1 :: h) 0%Qc)) (seq 1 (length h))) = sumQ (map Qcabs h)).
  { rewrite sumQ_shift. cbn [nth]. f_equal. apply (nth_ext_def 0%Qc); [now rewrite !map_length, seq_length|]. intros i Hi. rewrite map_length, seq_length in Hi. rewrite nth_map_seq by auto. now rewrite (map_nth_lt _ _ _ 0%Qc) by auto. }
  assert (MW : forall l k, Forall (fun v => In v (slicer_levels levels)) l -> (k < length l)%nat -> In (nth k l 0%Qc) (slicer_levels levels)) by (intros l k F Hk; exact (Forall_nth_lt _ _ _ 0%Qc F Hk)).
  assert (K : forall n, (n < length x)%nat -> nth n sout 0%Qc = nth n s 0%Qc).
  { induction n as [n IH] using (well_founded_induction lt_wf). intros Hn.
    assert (B : (Qcabs (err n) <= sumQ (map Qcabs h) * W)%Qc).
    { rewrite <- SH. apply (Qcabs_sum W (fun i => nth i (ofZ 1 :: h) 0%Qc) (fun i => at_time md s (Z.of_nat n - Z.of_nat i) - at_time zd sout (Z.of_nat n - Z.of_nat i))%Qc); [exact W0|].
      intros i Hi. apply in_seq in Hi. unfold at_time. destruct (Z.ltb_spec (Z.of_nat n - Z.of_nat i) 0).
      - apply HW; apply MW; auto; lia.
      - rewrite IH by lia. replace (nth _ s 0 - nth _ s 0)%Qc with 0%Qc by ring. rewrite Qcabs_pos by apply Qcle_refl. exact W0. }
    apply matched_decision with (slicer_levels levels) (nth n w 0 + err n)%Qc; [apply Sn; exact Hn| |rewrite <- A by exact Hn; apply De; lia].
    intros l Il Nl. specialize (Sp n l (nth n s 0%Qc) Hn Il (Sn n Hn) Nl). eapply Qcle_lt_trans; [|exact Sp]. pose proof (Qcabs_triangle (nth n w 0%Qc) (err n)) as T. change (ofZ 2) with (1 + 1)%Qc. rewrite Qcmult_plus_distr_l, !Qcmult_1_l. apply Qcplus_le_compat; (eapply Qcle_trans; [exact T|]); apply Qcplus_le_compat; auto using Qcle_refl. }
  exists sin. split; [exact Es|]. split.
  - split; [lia|]. intros n Hn. rewrite <- K by lia. apply De. lia.
  - intros n Hn. rewrite A by lia. assert (Z0 : err n = 0%Qc); [|rewrite Z0; ring]. unfold err. transitivity (sumQ (map (fun i => 0 * 0)%Qc (seq 1 (length h)))).
    + apply sumQ_map_ext. intros i Hi. apply in_seq in Hi. unfold at_time. destruct (Z.ltb_spec (Z.of_nat n - Z.of_nat i) 0); [lia|]. rewrite K by lia. ring.
    + rewrite sumQ_map_scale. ring.
Qed.
(** The error that never ends *)
Lemma alternating_run c N phase : c = ofZ 1 \/ c = ofZ (-1) -> let x := c :: repeat 0%Qc N in
  slicer_input (ffe_dfe x [ofZ 1] (Some [ofZ 1]%list) (Some [ofZ (-1); ofZ 1]%list) 1 phase None None) (alternating c (S N)) /\ decisions [ofZ (-1); ofZ 1] (alternating c (S N)) (alternating c (S N)).
Proof.
  intros Hc x. destruct (slicer_input_spec x [ofZ 1] [ofZ 1] (Some [ofZ (-1); ofZ 1]%list) phase None None ltac:(discriminate) ltac:(discriminate) ltac:(discriminate) ltac:(discriminate) ltac:(discriminate) ltac:(discriminate)) as (sin & sout & Es & Q).
  assert (NM : (- ofZ 1)%Qc = ofZ (-1)) by (apply Qc_is_canon; reflexivity). assert (NP : (- ofZ (-1))%Qc = ofZ 1) by (apply Qc_is_canon; reflexivity).
  assert (AL : forall i, (i < S N)%nat -> nth i (alternating c (S N)) 0%Qc = if Nat.even i then c else (- c)%Qc) by (intros i Hi; unfold alternating; now rewrite nth_map_seq by auto).
  assert (LA : length (alternating c (S N)) = S N) by (unfold alternating; now rewrite map_length, seq_length).
  assert (DA : decisions [ofZ (-1); ofZ 1] (alternating c (S N)) (alternating c (S N))).
  { split; [reflexivity|]. intros n Hn. rewrite AL by lia. assert (I : In (if Nat.even n then c else (- c)%Qc) [ofZ (-1); ofZ 1]) by (destruct Hc as [->| ->]; rewrite ?NM, ?NP; destruct (Nat.even n); cbn; auto).
    rewrite <- (sliced_level _ _ I) at 2. apply sliced_nearest. discriminate. }
  assert (Q2 : equaliser_equation [ofZ 1] [ofZ 1] (past_ffe None) (past_dfe [ofZ 1] None) [ofZ (-1); ofZ 1] 1 phase x (alternating c (S N)) (alternating c (S N))).
  { split; [rewrite LA; cbn [x length]; now rewrite repeat_length|]. split; [exact DA|]. intros n Hn. assert (Hn' : (n < S N)%nat) by (cbn [x length] in Hn; now rewrite repeat_length in Hn).
    rewrite AL by lia. unfold tap_sum. cbn [length Nat.sub seq map]. rewrite !sumQ_cons. cbn [nth]. rewrite contents_one. change (sumQ []) with 0%Qc. change (ofZ 1) with 1%Qc. rewrite !Qcmult_1_l. unfold at_time. cbn [past_ffe past_dfe].
    destruct (Z.ltb_spec (Z.of_nat n - Z.of_nat 0) 0); [lia|]. destruct n as [|n].
    - cbn. ring.
    - destruct (Z.ltb_spec (Z.of_nat (S n) - Z.of_nat 1) 0); [lia|]. replace (Z.to_nat (Z.of_nat (S n) - Z.of_nat 1)) with n by lia. rewrite AL by lia. replace (Z.to_nat (Z.of_nat (S n) - Z.of_nat 0)) with (S n) by lia.
      cbn [x nth]. rewrite nth_repeat. rewrite Nat.even_succ, <- Nat.negb_even. destruct (Nat.even n); cbn [negb]; ring. }
  destruct (equaliser_unique _ _ _ _ _ _ _ _ _ _ _ _ Q Q2) as (-> & _). split; [exact Es|exact DA].
Qed.
