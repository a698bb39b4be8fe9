(** Model of the coding stages of the example link: Encoder (example_simulation/simulation_parts/transmitter.py:24-90)
    and Decoder (example_simulation/simulation_parts/receiver.py:85-154), with their settings CodingData
    (example_simulation/simulation_parts/data_objects.py:11-46).
    Patterns are 1-D arrays of exact integers.  [bits_per_symbol] is an exact rational (np.isclose of lines 74 / 126
    is taken as equality).  Two situations are outside the model and are marked [Unmodelled]: a convolutional code
    whose [G] is an array, and decoding_linear / decoding_conv_viterbi of non-integers (decoding_manchester can produce
    1/2). *)
From Verif Require Import Py M_aux M_symbol M_coding M_linear M_conv M_convdec.
From Coq Require Import QArith Qround Qabs.
Open Scope Z_scope.

Inductive outcome (A : Type) := Done (r : res A) | Unmodelled.
Arguments Done {A} _. Arguments Unmodelled {A}.
Definition obind {A B} (o : outcome A) (f : A -> outcome B) : outcome B :=
  match o with Done (Ok x) => f x | Done (Raise e) => Done (Raise e) | Unmodelled => Unmodelled end.

(** The [G] argument: nothing, an array (linear block code) or a dictionary with [feedback], [use_feedback]
    (convolutional code). *)
Inductive generator := GNone | GArray (m : nda Z) | GDict (c : conv_code).

(** data_objects.py:11-46 *)
Record coding_data := mk_cd {
  constel : constellation ;
  bps : Q ;
  chunk_size : nat ;
  cflags : flags ;
  c_gray : bool ; c_diff : bool ;
  c_bin_diff : bool ; c_manchester : bool ; c_bipolar : bool ; c_mlt3 : bool ; c_diff_manchester : bool ;
  c_linear : bool ; c_conv : bool ;
  gmat : generator }.

(** One optional step of the chains of if statements. *)
Definition step {A} (flag : bool) (f : A -> outcome A) (x : A) : outcome A := if flag then f x else Done (Ok x).
Definition flat (f : nda Z -> res (nda Z)) (x : list Z) : outcome (list Z) := Done (r <- f (vec x) ;; Ok (data r)).

(** tx.coding_linear(pattern, G): [check_binary] of None or of a dictionary raises ValueError (the array of unique
    values is [[G]]), after the check of the pattern, which raises the same. *)
Definition enc_linear (G : generator) (x : list Z) : outcome (list Z) :=
  match G with GArray m => Done (coding_linear x m) | _ => Done (Raise ValueError) end.
(** tx.coding_conv(pattern, G, feedback, use_feedback): iterating over None raises TypeError, after the check of the
    pattern. *)
Definition enc_conv (G : generator) (x : list Z) : outcome (list Z) :=
  match G with
  | GDict c => Done (coding_conv x c None)
  | GNone => Done (_ <- check_binary x ;; Raise TypeError)
  | GArray _ => Unmodelled
  end.

(** transmitter.py:49-63 *)
Definition enc_binary (cd : coding_data) (p : list Z) : outcome (list Z) :=
  obind (step (c_bin_diff cd) (fun x => Done (Ok (data (coding_differential OOK (vec x))))) p) (fun x =>
  obind (step (c_manchester cd) (flat coding_manchester) x) (fun x =>
  obind (step (c_bipolar cd) (flat coding_bipolar) x) (fun x =>
  obind (step (c_mlt3 cd) (flat coding_mlt3) x) (fun x =>
  obind (step (c_diff_manchester cd) (flat coding_differential_manchester) x) (fun x =>
  obind (step (c_linear cd) (enc_linear (gmat cd)) x) (fun x =>
  step (c_conv cd) (enc_conv (gmat cd)) x)))))).

(** A rational that is an integer, [np.isclose(int(q), q)]. *)
Definition is_int (q : Q) : bool := Qeq_bool (inject_Z (Qfloor q)) q.
Definition over1 (q : Q) : bool := negb (Qle_bool q 1).
(** transmitter.py:67-81.  2**bits_per_symbol that is not an integral power of two makes bin2symbol raise ValueError
    (tx/bin2symbol.py:29-49). *)
Definition enc_symbols (cd : coding_data) (x : list Z) : res (list Z) :=
  if over1 (bps cd) then
    if is_int (bps cd) then bin2symbol x (2 ^ Qfloor (bps cd)) (cflags cd) else Raise ValueError
  else if is_int (bps cd) then Ok (if pn_inv (cflags cd) then map (fun v => 1 - v) x else x)
  else Ok (if pn_inv (cflags cd) then map (fun v => 2 - v) x else x).
(** transmitter.py:85-88 *)
Definition enc_symcode (cd : coding_data) (x : list Z) : outcome (list Z) :=
  obind (step (c_diff cd) (fun x => Done (Ok (data (coding_differential (constel cd) (vec x))))) x) (fun x =>
  step (c_gray cd) (flat (coding_gray (constel cd))) x).
Definition encoder (cd : coding_data) (p : list Z) : outcome (list Z) :=
  obind (enc_binary cd p) (fun x => obind (Done (enc_symbols cd x)) (enc_symcode cd)).

(** receiver.py:112-115: decoding_differential under the gray flag, decoding_gray under the differential flag. *)
Definition dec_symcode (cd : coding_data) (s : list Z) : outcome (list Z) :=
  obind (step (c_gray cd) (flat (decoding_differential (constel cd))) s) (fun x =>
  step (c_diff cd) (flat (decoding_gray (constel cd))) x).
(** receiver.py:119-133; symbol2bin uses int(log2(num_of_symbols)) bits. *)
Definition dec_symbols (cd : coding_data) (s : list Z) : res (list Z) :=
  if over1 (bps cd) then symbol2bin s (2 ^ Qfloor (bps cd)) (cflags cd)
  else if is_int (bps cd) then Ok (if pn_inv (cflags cd) then map (fun v => 1 - v) s else s)
  else Ok (if pn_inv (cflags cd) then map (fun v => 2 - v) s else s).
Definition dec_linear (G : generator) (x : list Z) : outcome (list Z) :=
  match G with GArray m => Done (decoding_linear x m) | _ => Done (Raise ValueError) end.
Definition dec_conv (G : generator) (tb : nat) (x : list Z) : outcome (list Z) :=
  match G with
  | GDict c => Done (r <- decoding_conv_viterbi x c tb ;; Ok (fst (fst r)))
  | GNone => Done (_ <- check_binary x ;; Raise TypeError)
  | GArray _ => Unmodelled
  end.
(** receiver.py:141-153, the decoders after decoding_manchester. *)
Definition dec_rest (cd : coding_data) (x : list Z) : outcome (list Z) :=
  obind (step (c_bipolar cd) (fun x => Done (Ok (data (decoding_bipolar (vec x))))) x) (fun x =>
  obind (step (c_mlt3 cd) (fun x => Done (decoding_mlt3 x)) x) (fun x =>
  obind (step (c_diff_manchester cd) (flat decoding_differential_manchester) x) (fun x =>
  obind (step (c_linear cd) (dec_linear (gmat cd)) x) (fun x =>
  step (c_conv cd) (dec_conv (gmat cd) (chunk_size cd)) x)))).
Definition to_ints (l : list Q) : option (list Z) :=
  if forallb is_int l then Some (map Qfloor l) else None.
(** The same decoders on an array with non-integers (values in lowest terms): rx/decoding.py:88-143 and
    misc/help_functions.py:3-10; astype(int) of decoding.py:143 truncates. *)
Definition bipolarQ (x : list Q) : list Q := map (fun v => Qred (Qabs (v - 1))) x.
Fixpoint diffQ (prev : Q) (l : list Q) : list Q :=
  match l with [] => [] | v :: l' => Qred (Qabs (v - prev)) :: diffQ v l' end.
Definition mlt3Q (x : list Q) : res (list Q) :=
  match x with [] => Raise IndexError | v :: l => Ok ((if Qeq_bool v 1 then 1%Q else 0%Q) :: diffQ v l) end.
Definition Q_dec (a b : Q) : {a = b} + {a <> b}.
Proof. decide equality; [apply Pos.eq_dec | apply Z.eq_dec]. Defined.
Definition check_binaryQ (x : list Q) : res unit :=
  let u := nodup Q_dec x in
  let none := negb (existsb (Qeq_bool 0) u) && negb (existsb (Qeq_bool 1) u) in
  if (length u =? 1)%nat && none then Raise ValueError
  else if (length u =? 2)%nat && none then Raise ValueError
  else if (2 <? length u)%nat then Raise ValueError
  else Ok tt.
Fixpoint pairs_dm (x : list Q) : list Q :=
  match x with
  | a :: b :: l => let v := Qminus 1 (Qabs (b - a)) in inject_Z (Z.quot (Qnum v) (Zpos (Qden v))) :: pairs_dm l
  | _ => [] end.
Definition dmQ (x : list Q) : res (list Q) :=
  _ <- check_binaryQ x ;;
  if (length x mod 2 =? 0)%nat then Ok (pairs_dm x) else Raise ValueError.
Definition dec_rest_half (cd : coding_data) (x : list Q) : outcome (list Q) :=
  obind (step (c_bipolar cd) (fun x => Done (Ok (bipolarQ x))) x) (fun x =>
  obind (step (c_mlt3 cd) (fun x => Done (mlt3Q x)) x) (fun x =>
  obind (step (c_diff_manchester cd) (fun x => Done (dmQ x)) x) (fun x =>
  if c_linear cd || c_conv cd then
    match to_ints x with
    | Some y => obind (obind (step (c_linear cd) (dec_linear (gmat cd)) y) (fun y =>
                  step (c_conv cd) (dec_conv (gmat cd) (chunk_size cd)) y)) (fun z => Done (Ok (map inject_Z z)))
    | None => Unmodelled
    end
  else Done (Ok x)))).
(** receiver.py:137-154; decoding_manchester returns floats. *)
Definition dec_binary (cd : coding_data) (x : list Z) : outcome (list Q) :=
  obind (step (c_bin_diff cd) (flat (decoding_differential OOK)) x) (fun x =>
  let after y := obind (dec_rest cd y) (fun z => Done (Ok (map inject_Z z))) in
  if c_manchester cd then
    match decoding_manchester (vec x) with
    | Raise e => Done (Raise e)
    | Ok r => match to_ints (data r) with Some y => after y | None => dec_rest_half cd (data r) end
    end
  else after x).
Definition decoder (cd : coding_data) (s : list Z) : outcome (list Q) :=
  obind (dec_symcode cd s) (fun x => obind (Done (dec_symbols cd x)) (dec_binary cd)).

(** What the receiver hands out for a transmitted pattern over a perfect channel. *)
Definition link (cd : coding_data) (p : list Z) : outcome (list Q) := obind (encoder cd p) (decoder cd).
