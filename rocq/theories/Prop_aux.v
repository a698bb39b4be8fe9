(** Properties C11, C28, C31-C34: helper functions of auxiliary.py and help_functions.py. *)
From Verif Require Import Py B_list M_aux S_aux P_aux P_buffer.

(** C11: the Gray table. *)
Theorem C11_gray_level_vec : forall m : nat, (1 <= m)%nat ->
  length (get_gray_level_vec m) = m /\
  (forall i, (i < m)%nat -> nth i (get_gray_level_vec m) 0 = Z.lxor (Z.of_nat i) (Z.shiftr (Z.of_nat i) 1)) /\
  (forall i, (i + 1 < m)%nat ->
     one_bit_apart (nth i (get_gray_level_vec m) 0) (nth (i + 1) (get_gray_level_vec m) 0)) /\
  NoDup (get_gray_level_vec m).
Proof. exact gray_table. Qed.
Print Assumptions C11_gray_level_vec.
Example C11_nonvacuous : get_gray_level_vec 6 = [0; 1; 3; 2; 6; 7].
Proof. reflexivity. Qed.

(** C28: exactly which arrays pass the binary check. *)
Theorem C28_check_binary_accepts : forall l : list Z,
  check_binary l = Ok tt <-> l = [] \/ ((In 0 l \/ In 1 l) /\ exists a b, forall x, In x l -> x = a \/ x = b).
Proof. exact check_binary_char. Qed.
Print Assumptions C28_check_binary_accepts.
(** C28: the only other outcome is ValueError. *)
Theorem C28_check_binary_raises_ValueError : forall l : list Z,
  check_binary l = Ok tt \/ check_binary l = Raise ValueError.
Proof. exact check_binary_raise. Qed.
Print Assumptions C28_check_binary_raises_ValueError.
(** C28: every array over {0,1} passes. *)
Theorem C28_check_binary_bits : forall l : list Z, bits l -> check_binary l = Ok tt.
Proof. exact check_binary_bits. Qed.
Print Assumptions C28_check_binary_bits.
(** C28 (finding): "passes the check" does not mean "is over {0,1}". *)
Theorem C28_accepts_only_bits_refuted : exists l : list Z, check_binary l = Ok tt /\ ~ bits l.
Proof.
  exists [1; -1; 1]. split; [reflexivity|]. intros H. unfold bits in H. rewrite Forall_forall in H.
  destruct (H (-1)); simpl; auto; discriminate.
Qed.
Print Assumptions C28_accepts_only_bits_refuted.
Example C28_cases : check_binary [0; 1; 1] = Ok tt /\ check_binary [0; 7; 0] = Ok tt /\
  check_binary [0; 1; 2] = Raise ValueError /\ check_binary [2; 2] = Raise ValueError /\ check_binary [2; 3] = Raise ValueError.
Proof. repeat split; reflexivity. Qed.

(** C31: entries, width and number of the frames. *)
Theorem C31_buffer_frames : forall (A : Type) (zero : A) (eqb : A -> A -> bool) (s : list A) (len d : nat) (ov : Z),
  s <> [] -> (0 < len)%nat -> ov < Z.of_nat len ->
  exists m, buffer zero eqb s (Z.of_nat len) ov (Z.of_nat d) false = Ok m /\
    length m = ceil_div (Z.of_nat d + Z.of_nat (length s) - Z.max ov 0) (Z.of_nat len - ov) /\
    Forall (fun r => length r = len) m /\
    forall r c, (r < length m)%nat -> (c < len)%nat ->
      nth c (nth r m []) zero = delayed zero d s (r * Z.to_nat (Z.of_nat len - ov) + c).
Proof. exact @buffer_spec. Qed.
Print Assumptions C31_buffer_frames.
(** C31: with overlap 0 the rows are the delayed signal, padded with fewer than [len] zeros. *)
Theorem C31_buffer_flatten : forall (A : Type) (zero : A) (eqb : A -> A -> bool) (s : list A) (len d : nat),
  s <> [] -> (0 < len)%nat ->
  exists m pad, buffer zero eqb s (Z.of_nat len) 0 (Z.of_nat d) false = Ok m /\ (pad < len)%nat /\
    concat m = repeat zero d ++ s ++ repeat zero pad.
Proof. exact @buffer_flatten. Qed.
Print Assumptions C31_buffer_flatten.
(** C31: error cases. *)
Theorem C31_buffer_errors : forall (A : Type) (zero : A) (eqb : A -> A -> bool) (s : list A) (len ov d : Z) (clip : bool),
  (ov = len -> buffer zero eqb s len ov d clip = Raise ZeroDivisionError) /\
  (ov <> len -> buffer zero eqb [] len ov d clip = Raise IndexError).
Proof. intros. split; [intros ->; apply buffer_stride0|apply buffer_empty]. Qed.
Print Assumptions C31_buffer_errors.
Example C31_nonvacuous :
  buffer 0 Z.eqb [1; 2; 3; 4; 5] 3 1 1 false = Ok [[0; 1; 2]; [2; 3; 4]; [4; 5; 0]] /\
  buffer 0 Z.eqb [1; 2; 3; 4; 5] 2 (-1) 0 false = Ok [[1; 2]; [4; 5]].
Proof. split; reflexivity. Qed.

(** C32: [clip = True] keeps the matrix or drops exactly its last row; it keeps it iff some entry of the
    last row equals an entry in the same column of the sliding-window matrix of the signal. *)
Theorem C32_buffer_clip : forall (A : Type) (zero : A) (eqb : A -> A -> bool),
  (forall a b, eqb a b = true <-> a = b) -> forall (s : list A) (len d : nat) (ov : Z),
  (0 < len)%nat -> (len <= length s)%nat -> ov < Z.of_nat len ->
  exists m, buffer zero eqb s (Z.of_nat len) ov (Z.of_nat d) false = Ok m /\
    (m <> [] -> exists b : bool,
       buffer zero eqb s (Z.of_nat len) ov (Z.of_nat d) true = Ok (if b then m else removelast m) /\
       (b = true <-> exists i c, (i < length s - 1)%nat /\ (c < len)%nat /\
                       window_entry zero s i c = nth c (last m []) zero)).
Proof. exact @buffer_clip_spec. Qed.
Print Assumptions C32_buffer_clip.
(** C32 (finding): clip does not remove an incomplete last row when values repeat. *)
Theorem C32_clip_removes_incomplete_row_refuted :
  exists (s : list Z) (len : nat), buffer 0 Z.eqb s (Z.of_nat len) 0 0 true = Ok [[1; 1]; [1; 0]] /\ length s = 3%nat.
Proof. exists [1; 1; 1], 2%nat. split; reflexivity. Qed.
Print Assumptions C32_clip_removes_incomplete_row_refuted.
(** C32 (finding): clip can remove a complete last row. *)
Theorem C32_clip_keeps_complete_rows_refuted :
  exists (s : list Z), buffer 0 Z.eqb s 1 0 0 false = Ok [[4]; [5]] /\ buffer 0 Z.eqb s 1 0 0 true = Ok [[4]].
Proof. exists [4; 5]. split; reflexivity. Qed.
Print Assumptions C32_clip_keeps_complete_rows_refuted.
Example C32_nonvacuous : buffer 0 Z.eqb [1; 2; 3; 4; 5] 2 0 0 true = Ok [[1; 2]; [3; 4]] /\
  buffer 0 Z.eqb [1; 2; 3; 4] 2 0 0 true = Ok [[1; 2]; [3; 4]].
Proof. split; reflexivity. Qed.

(** C33: zero stuffing. *)
Theorem C33_upsample : forall (A : Type) (zero : A) (x : list A) (r : nat), (1 <= r)%nat ->
  exists y, upsample zero x (Z.of_nat r) = Ok y /\ length y = (length x * r)%nat /\
    forall i, (i < length x * r)%nat -> nth i y zero = if (i mod r =? 0)%nat then nth (i / r) x zero else zero.
Proof. exact @upsample_spec. Qed.
Print Assumptions C33_upsample.
(** C33: zero order hold. *)
Theorem C33_zoh : forall (A : Type) (zero : A) (x : list A) (r : nat),
  exists y, zoh x (Z.of_nat r) = Ok y /\ length y = (length x * r)%nat /\
    forall i, (i < length x * r)%nat -> nth i y zero = nth (i / r) x zero.
Proof. exact @zoh_spec. Qed.
Print Assumptions C33_zoh.
(** C33: both commute with concatenation. *)
Theorem C33_concatenation : forall (A : Type) (zero : A) (x y : list A) (r : nat), (1 <= r)%nat ->
  (exists ux uy, upsample zero x (Z.of_nat r) = Ok ux /\ upsample zero y (Z.of_nat r) = Ok uy /\
     upsample zero (x ++ y) (Z.of_nat r) = Ok (ux ++ uy)) /\
  (exists ux uy, zoh x (Z.of_nat r) = Ok ux /\ zoh y (Z.of_nat r) = Ok uy /\
     zoh (x ++ y) (Z.of_nat r) = Ok (ux ++ uy)).
Proof. intros. split; [now apply upsample_app|apply zoh_app]. Qed.
Print Assumptions C33_concatenation.
Example C33_nonvacuous : upsample 0 [7; 8] 3 = Ok [7; 0; 0; 8; 0; 0] /\ zoh [7; 8] 3 = Ok [7; 7; 7; 8; 8; 8] /\
  upsample 0 [7] 0 = Raise ValueError.
Proof. repeat split; reflexivity. Qed.

(** C34: all k-bit vectors, once each, in increasing order. *)
Theorem C34_get_bin_perm : forall k : nat,
  map val_msb (get_bin_perm k) = map Z.of_nat (seq 0 (2 ^ k)) /\ NoDup (get_bin_perm k) /\
  (forall v, In v (get_bin_perm k) <-> length v = k /\ bits v).
Proof. exact get_bin_perm_spec. Qed.
Print Assumptions C34_get_bin_perm.
(** C34: bin2uint is the binary value, and the conversions are mutually inverse. *)
Theorem C34_bin2uint_value : forall row : list Z, bin2uint row = val_msb row.
Proof. exact bin2uint_val. Qed.
Print Assumptions C34_bin2uint_value.
Theorem C34_uint2bin_bin2uint : forall row : list Z, bits row -> uint2bin (length row) (bin2uint row) = row.
Proof. exact uint2bin_bin2uint. Qed.
Print Assumptions C34_uint2bin_bin2uint.
Theorem C34_bin2uint_uint2bin : forall (k : nat) (x : Z), 0 <= x < 2 ^ Z.of_nat k -> bin2uint (uint2bin k x) = x.
Proof. exact bin2uint_uint2bin. Qed.
Print Assumptions C34_bin2uint_uint2bin.
(** C34: the Hamming table and the first nearest codeword. *)
Theorem C34_hamming : forall (k : nat) (blocks cb : list (list Z)), cb <> [] ->
  Forall (fun c => length c = k /\ bits c) cb -> Forall (fun b => length b = k /\ bits b) blocks ->
  exists table idx, hamming blocks cb = Ok (table, idx) /\ length table = length blocks /\ length idx = length blocks /\
    forall i, (i < length blocks)%nat ->
      (forall j, (j < length cb)%nat -> nth j (nth i table []) 0 = Z.of_nat (hdist (nth j cb []) (nth i blocks []))) /\
      (nth i idx 0 < length cb)%nat /\
      (forall j, (j < length cb)%nat ->
        (hdist (nth (nth i idx 0) cb []) (nth i blocks []) <= hdist (nth j cb []) (nth i blocks []))%nat) /\
      (forall j, (j < nth i idx 0)%nat ->
        (hdist (nth (nth i idx 0) cb []) (nth i blocks []) < hdist (nth j cb []) (nth i blocks []))%nat).
Proof. exact hamming_spec. Qed.
Print Assumptions C34_hamming.
Example C34_nonvacuous : get_bin_perm 2 = [[0; 0]; [0; 1]; [1; 0]; [1; 1]] /\ bin2uint [1; 1; 0] = 6 /\
  uint2bin 3 6 = [1; 1; 0] /\ hamming [[1; 0; 1]] [[0; 0; 0]; [1; 1; 1]] = Ok ([[2; 1]], [1%nat]).
Proof. repeat split; reflexivity. Qed.
