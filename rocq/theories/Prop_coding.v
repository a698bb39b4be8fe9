(** Properties C12-C17: line codes (tx/coding.py, rx/decoding.py). *)
From Verif Require Import Py B_list M_aux S_aux M_coding S_coding P_aux P_coding P_bipolar.
From Coq Require Import QArith.
Open Scope Z_scope.

(** C12: gray decoding inverts gray coding for OOK, NRZ and PAM4; coded symbols stay in the constellation. *)
Theorem C12_gray_roundtrip : forall (c : constellation) (p : nda Z), c <> PAM3 ->
  Forall (fun i => 0 <= i < Z.of_nat (length (get_levels c))) (data p) ->
  exists q, coding_gray c p = Ok q /\ shape q = shape p /\
    Forall (fun i => 0 <= i < Z.of_nat (length (get_levels c))) (data q) /\ decoding_gray c q = Ok p.
Proof. exact gray_roundtrip. Qed.
Print Assumptions C12_gray_roundtrip.
(** C12: for PAM3 exactly the arrays without the symbol 2 survive; the others make the decoder raise. *)
Theorem C12_gray_pam3_exact : forall p : nda Z, Forall (fun i => 0 <= i < 3) (data p) ->
  exists q, coding_gray PAM3 p = Ok q /\
    (In 2 (data p) -> decoding_gray PAM3 q = Raise IndexError) /\
    (~ In 2 (data p) -> q = p /\ decoding_gray PAM3 q = Ok p).
Proof. exact gray_pam3. Qed.
Print Assumptions C12_gray_pam3_exact.
(** C12 (finding): the round trip fails for PAM3. *)
Theorem C12_gray_roundtrip_pam3_refuted : exists p q : nda Z, Forall (fun i => 0 <= i < 3) (data p) /\
  coding_gray PAM3 p = Ok q /\ In 3 (data q) /\ decoding_gray PAM3 q = Raise IndexError.
Proof. exists (vec [0; 1; 2]), (vec [0; 1; 3]). split; [repeat constructor; lia|]. repeat split; simpl; auto. Qed.
Print Assumptions C12_gray_roundtrip_pam3_refuted.
Example C12_pam4 : coding_gray PAM4 (vec [0; 1; 2; 3]) = Ok (vec [0; 1; 3; 2]) /\ decoding_gray PAM4 (vec [0; 1; 3; 2]) = Ok (vec [0; 1; 2; 3]).
Proof. split; reflexivity. Qed.

(** C13: the encoder recurrence in flattened order. *)
Theorem C13_differential_recurrence : forall (c : constellation) (p : nda Z),
  let y := data (coding_differential c p) in
  shape (coding_differential c p) = shape p /\ length y = length (data p) /\
  forall i, (i < length (data p))%nat ->
    nth i y 0 = (nth i (data p) 0 + (if (i =? 0)%nat then 0 else nth (i - 1) y 0)) mod Z.of_nat (length (get_levels c)).
Proof. exact coding_diff_rec. Qed.
Print Assumptions C13_differential_recurrence.
(** C13: round trip on 1-D arrays. *)
Theorem C13_differential_roundtrip_1d : forall (c : constellation) (x : list Z), x <> [] ->
  Forall (fun i => 0 <= i < Z.of_nat (length (get_levels c))) x ->
  decoding_differential c (coding_differential c (vec x)) = Ok (vec x).
Proof. exact diff_roundtrip_1d. Qed.
Print Assumptions C13_differential_roundtrip_1d.
(** C13: what the round trip gives on arrays of any shape: wrong exactly (at most) at the first entry of
    the second and later rows, where the coded symbol itself comes out. *)
Theorem C13_differential_roundtrip_nd : forall (c : constellation) (p : nda Z), shape p <> [] -> wf_nda p ->
  (0 < last_dim (shape p))%nat -> Forall (fun i => 0 <= i < Z.of_nat (length (get_levels c))) (data p) ->
  exists q, decoding_differential c (coding_differential c p) = Ok q /\ shape q = shape p /\ length (data q) = length (data p) /\
   forall i, (i < length (data p))%nat -> nth i (data q) 0 =
     if ((i mod last_dim (shape p) =? 0) && negb (i =? 0))%nat
     then nth i (data (coding_differential c p)) 0 else nth i (data p) 0.
Proof. exact diff_roundtrip. Qed.
Print Assumptions C13_differential_roundtrip_nd.
(** C13 (finding): the round trip fails on a 2x2 array. *)
Theorem C13_differential_roundtrip_2d_refuted : exists p : nda Z, wf_nda p /\ bits (data p) /\
  decoding_differential OOK (coding_differential OOK p) <> Ok p.
Proof.
  exists (mk_nda [2; 2]%nat [1; 0; 0; 0]). split; [reflexivity|]. split.
  - repeat constructor; unfold isbit; lia.
  - vm_compute. congruence.
Qed.
Print Assumptions C13_differential_roundtrip_2d_refuted.
(** C13: a constant rotation of all received symbols changes nothing after the first decoded symbol. *)
Theorem C13_differential_rotation_insensitive : forall (c : constellation) (x : list Z) (k : Z), x <> [] ->
  Forall (fun i => 0 <= i < Z.of_nat (length (get_levels c))) x ->
  exists q, decoding_differential c (vec (map (fun v => (v + k) mod Z.of_nat (length (get_levels c))) (data (coding_differential c (vec x))))) = Ok (vec q) /\
    length q = length x /\ forall i, (0 < i < length x)%nat -> nth i q 0 = nth i x 0.
Proof. exact diff_rotation. Qed.
Print Assumptions C13_differential_rotation_insensitive.
(** C13: an empty last axis raises ValueError. *)
Theorem C13_differential_decode_empty : forall (c : constellation) (p : nda Z), last_dim (shape p) = 0%nat ->
  decoding_differential c p = Raise ValueError.
Proof. exact decoding_diff_empty. Qed.
Print Assumptions C13_differential_decode_empty.
Example C13_pam4 : coding_differential PAM4 (vec [1; 3; 2; 0]) = vec [1; 0; 2; 2] /\
  decoding_differential PAM4 (vec [1; 0; 2; 2]) = Ok (vec [1; 3; 2; 0]).
Proof. split; reflexivity. Qed.

(** C14: round trip on arrays of any shape. *)
Theorem C14_manchester_roundtrip : forall p : nda Z, bits (data p) -> shape p <> [] -> wf_nda p ->
  exists q, coding_manchester p = Ok q /\ decoding_manchester q = Ok (mk_nda (shape p) (map inject_Z (data p))).
Proof. exact manch_roundtrip. Qed.
Print Assumptions C14_manchester_roundtrip.
(** C14: cell contents, transition inside each cell, running disparity within 1, balance. *)
Theorem C14_manchester_line : forall p : nda Z, bits (data p) -> shape p <> [] -> wf_nda p ->
  exists q, coding_manchester p = Ok q /\ length (data q) = (2 * length (data p))%nat /\ bits (data q) /\
    (forall i, (i < length (data p))%nat -> nth (2 * i) (data q) 0 = nth i (data p) 0 /\
        nth (2 * i + 1) (data q) 0 = 1 - nth i (data p) 0) /\
    (forall n, (n <= length (data q))%nat -> -1 <= disparity (data q) n <= 1) /\
    (forall i, (i < length (data p))%nat -> disparity (data q) (2 * i) = 0) /\
    disparity (data q) (length (data q)) = 0.
Proof. exact manch_line. Qed.
Print Assumptions C14_manchester_line.
(** C14: one flipped line bit marks exactly the hit bit with 1/2. *)
Theorem C14_manchester_single_error : forall (p : nda Z) (j : nat), bits (data p) -> shape p <> [] -> wf_nda p ->
  (j < 2 * length (data p))%nat ->
  exists q r, coding_manchester p = Ok q /\
    decoding_manchester (mk_nda (shape q) (replace_at j (1 - nth j (data q) 0) (data q))) = Ok r /\ shape r = shape p /\
    length (data r) = length (data p) /\
    nth (j / 2) (data r) 0%Q = (1 # 2)%Q /\
    forall i, (i < length (data p))%nat -> i <> (j / 2)%nat -> nth i (data r) 0%Q = inject_Z (nth i (data p) 0).
Proof. exact manch_single_error. Qed.
Print Assumptions C14_manchester_single_error.
Theorem C14_manchester_odd_length : forall p : nda Z, bits (data p) -> shape p <> [] -> Nat.odd (length (data p)) = true ->
  decoding_manchester p = Raise ValueError.
Proof. exact manch_odd. Qed.
Print Assumptions C14_manchester_odd_length.
Example C14_case : coding_manchester (vec [1; 0; 0]) = Ok (vec [1; 0; 0; 1; 0; 1]) /\
  decoding_manchester (vec [1; 0; 0; 0; 0; 1]) = Ok (vec [1; 1 # 2; 0]%Q).
Proof. split; reflexivity. Qed.
(** C28 (finding): a {-1,1} array is accepted and encoded as if it were all ones. *)
Theorem C28_manchester_of_pm1_refuted : forall x : list Z, Forall (fun v => v = 1 \/ v = -1) x -> In 1 x -> In (-1) x ->
  coding_manchester (vec x) = Ok (vec (concat (map (fun _ => [1; 0]) x))).
Proof.
  intros x H H1 H2. unfold coding_manchester.
  assert (C : check_binary (data (vec x)) = Ok tt).
  { apply check_binary_char. right. split.
    - right. exact H1.
    - exists 1, (-1). intros v Hv. rewrite Forall_forall in H. auto. }
  rewrite C. cbn [bind shape vec].
  assert (T : np_take [[0; 1]; [1; 0]] (data (vec x)) = Ok (map (fun _ => [1; 0]) x)).
  { unfold np_take. apply map_res_ok. intros b Hin. rewrite Forall_forall in H. destruct (H b Hin) as [->| ->]; reflexivity. }
  rewrite T. cbn [bind].
  assert (L : length (concat (map (fun _ : Z => [1; 0]) x)) = (2 * length x)%nat) by (clear; induction x; simpl; lia).
  rewrite reshape_ok.
  - unfold vec, set_last_dim, last_dim. rewrite L. reflexivity.
  - rewrite L. unfold set_last_dim, last_dim, size. simpl. lia.
Qed.
Print Assumptions C28_manchester_of_pm1_refuted.

(** C15: zeros go to level 1, the k-th mark to 0 (k odd) or 2 (k even). *)
Theorem C15_bipolar_encoding : forall p : nda Z, bits (data p) ->
  exists q, coding_bipolar p = Ok q /\ shape q = shape p /\ length (data q) = length (data p) /\
    forall i, (i < length (data p))%nat -> nth i (data q) 0 =
      if nth i (data p) 0 =? 1 then (if Nat.even (ones (data p) (S i)) then 2 else 0) else 1.
Proof.
  intros p H. eexists. split; [exact (bipolar_enc p H)|]. split; [reflexivity|]. split; [apply ami_length|].
  intros i Hi. now apply ami_nth.
Qed.
Print Assumptions C15_bipolar_encoding.
Theorem C15_bipolar_roundtrip : forall p : nda Z, bits (data p) ->
  exists q, coding_bipolar p = Ok q /\ decoding_bipolar q = p.
Proof.
  intros p H. eexists. split; [exact (bipolar_enc p H)|]. unfold decoding_bipolar. cbn [shape data].
  rewrite ami_decode by auto. apply nda_eta.
Qed.
Print Assumptions C15_bipolar_roundtrip.
Theorem C15_bipolar_roundtrip_detect : forall x : list Z, bits x ->
  exists q, coding_bipolar (vec x) = Ok (vec q) /\ decoding_bipolar_detect q = map inject_Z x.
Proof.
  intros x H. exists (ami 0 x). split; [|now apply detect_roundtrip]. rewrite bipolar_enc by exact H. unfold vec. now rewrite ami_length.
Qed.
Print Assumptions C15_bipolar_roundtrip_detect.
(** C15: the error-detecting decoder on every received ternary sequence. *)
Theorem C15_bipolar_detect_exact : forall y : list Z, Forall (fun v => v = 0 \/ v = 1 \/ v = 2) y ->
  length (decoding_bipolar_detect y) = length y /\
  forall i, (i < length y)%nat -> nth i (decoding_bipolar_detect y) 0%Q =
    if violates y i then ((if in_first_run y i then 1 else nth i y 1 - 1)%Z # 2)%Q
    else inject_Z (Z.abs (nth i y 1 - 1)).
Proof. exact detect_spec. Qed.
Print Assumptions C15_bipolar_detect_exact.
(** C15: any single symbol error with a mark somewhere before it and a mark somewhere after it is flagged. *)
Theorem C15_bipolar_single_error_flagged : forall (x : list Z) (p a b : nat) (e : Z), bits x ->
  (a < p < length x)%nat -> (p < b < length x)%nat -> nth a x 0 = 1 -> nth b x 0 = 1 ->
  exists q, coding_bipolar (vec x) = Ok (vec q) /\
    ((e = 0 \/ e = 1 \/ e = 2) -> e <> nth p q 0 ->
     exists i s, (i < length x)%nat /\ nth i (decoding_bipolar_detect (replace_at p e q)) 0%Q = (s # 2)%Q /\ (s = 1 \/ s = -1)).
Proof.
  intros x p a b e H Ha Hb Na Nb. exists (ami 0 x). split; [rewrite bipolar_enc by exact H; unfold vec; now rewrite ami_length|].
  intros He Hne. exact (single_error x p e a b H Ha Hb Na Nb He Hne).
Qed.
Print Assumptions C15_bipolar_single_error_flagged.
(** C15 (finding): two -1 marks at the start of the stream are flagged +1/2, not -1/2. *)
Theorem C15_bipolar_flag_sign_refuted : exists y : list Z, Forall (fun v => v = 0 \/ v = 1 \/ v = 2) y /\
  nth 0 y 1 - 1 = -1 /\ violates y 0 = true /\ nth 0 (decoding_bipolar_detect y) 0%Q = (1 # 2)%Q.
Proof. exists [0; 0]. split; [repeat constructor; auto|]. repeat split; reflexivity. Qed.
Print Assumptions C15_bipolar_flag_sign_refuted.
(** C15: an error with no mark after it can go unnoticed. *)
Theorem C15_bipolar_every_error_flagged_refuted : exists x q, bits x /\ coding_bipolar (vec x) = Ok (vec q) /\
  decoding_bipolar_detect (replace_at 1 2 q) = [1; 1; 0]%Q /\ map inject_Z x = [1; 0; 0]%Q.
Proof. exists [1; 0; 0], [0; 1; 1]. split; [repeat constructor; unfold isbit; lia|]. repeat split; reflexivity. Qed.
Print Assumptions C15_bipolar_every_error_flagged_refuted.
Example C15_case : coding_bipolar (vec [1; 0; 1; 1]) = Ok (vec [0; 1; 2; 0]) /\
  decoding_bipolar_detect [0; 1; 2; 2; 0; 1] = [1; 0; 1 # 2; 1 # 2; 1; 0]%Q /\
  decoding_bipolar_detect [2; 0; 0; 2] = [1; -1 # 2; -1 # 2; 1]%Q.
Proof. repeat split; reflexivity. Qed.

(** C16 *)
Theorem C16_mlt3_level : forall p : nda Z, bits (data p) ->
  exists q, coding_mlt3 p = Ok q /\ shape q = shape p /\ length (data q) = length (data p) /\
    forall i, (i < length (data p))%nat -> nth i (data q) 0 = mlt_level (ones (data p) (S i)).
Proof. exact mlt3_char. Qed.
Print Assumptions C16_mlt3_level.
Theorem C16_mlt3_step : forall p : nda Z, bits (data p) ->
  exists q, coding_mlt3 p = Ok q /\ forall i, (i + 1 < length (data p))%nat ->
     Z.abs (nth (i + 1) (data q) 0 - nth i (data q) 0) = nth (i + 1) (data p) 0.
Proof. exact mlt3_step. Qed.
Print Assumptions C16_mlt3_step.
Theorem C16_mlt3_roundtrip : forall x : list Z, x <> [] -> bits x ->
  exists q, coding_mlt3 (vec x) = Ok (vec q) /\ decoding_mlt3 q = Ok x.
Proof. exact mlt3_roundtrip. Qed.
Print Assumptions C16_mlt3_roundtrip.
Theorem C16_mlt3_empty : decoding_mlt3 [] = Raise IndexError.
Proof. reflexivity. Qed.
Print Assumptions C16_mlt3_empty.
Example C16_case : coding_mlt3 (vec [1; 1; 0; 1; 1]) = Ok (vec [1; 2; 2; 1; 0]) /\ decoding_mlt3 [1; 2; 2; 1; 0] = Ok [1; 1; 0; 1; 1].
Proof. split; reflexivity. Qed.

(** C17 *)
Theorem C17_diff_manchester_line : forall p : nda Z, bits (data p) -> shape p <> [] -> wf_nda p ->
  exists q, coding_differential_manchester p = Ok q /\ length (data q) = (2 * length (data p))%nat /\ bits (data q) /\
   (forall i, (i < length (data p))%nat -> Z.abs (nth (2 * i + 1) (data q) 0 - nth (2 * i) (data q) 0) = 1 - nth i (data p) 0) /\
   (forall i, (i + 1 < length (data p))%nat -> nth (2 * i + 2) (data q) 0 = 1 - nth (2 * i + 1) (data q) 0) /\
   (forall n, (n + 2 < length (data q))%nat -> ~ (nth n (data q) 0 = nth (n + 1) (data q) 0 /\ nth (n + 1) (data q) 0 = nth (n + 2) (data q) 0)).
Proof. exact dm_line. Qed.
Print Assumptions C17_diff_manchester_line.
Theorem C17_diff_manchester_roundtrip : forall (p : nda Z) (inverted : bool), bits (data p) -> shape p <> [] -> wf_nda p ->
  exists q, coding_differential_manchester p = Ok q /\
    decoding_differential_manchester (if inverted then mk_nda (shape q) (map (fun v => 1 - v) (data q)) else q) = Ok p.
Proof. exact dm_roundtrip. Qed.
Print Assumptions C17_diff_manchester_roundtrip.
(** C17 (finding): on the example of the docstring (coding.py:131-132) the coder emits the complement. *)
Theorem C17_diff_manchester_docstring_refuted :
  let x := [1; 0; 1; 0; 0; 1; 1; 1; 0; 0; 1] in
  let doc := [1; 1; 0; 1; 0; 0; 1; 0; 1; 0; 1; 1; 0; 0; 1; 1; 0; 1; 0; 1; 0; 0] in
  coding_differential_manchester (vec x) = Ok (vec (map (fun b => 1 - b) doc)) /\
  coding_differential_manchester (vec x) <> Ok (vec doc).
Proof. split; vm_compute; congruence. Qed.
Print Assumptions C17_diff_manchester_docstring_refuted.
Example C17_case : coding_differential_manchester (vec [0; 1; 1; 0]) = Ok (vec [0; 1; 0; 0; 1; 1; 0; 1]).
Proof. reflexivity. Qed.
