(** Model of CommDspy/tx/prbs_generator.py and CommDspy/tx/prbs_iterator.py. *)
From Verif Require Import Py.

(** One turn of the loop body, prbs_generator.py:29-30 and prbs_iterator.py:24-26:
    new bit and new register.  [seed[:-1]] is [removelast]. *)
Definition lfsr_bit (poly seed : list Z) : Z := dotZ poly seed mod 2.
Definition lfsr_step (poly seed : list Z) : list Z := lfsr_bit poly seed :: removelast seed.

(** The [for] loop of prbs_generator.py:28-30. *)
Fixpoint lfsr_loop (poly seed : list Z) (n : nat) : list Z * list Z :=
  match n with
  | O => ([], seed)
  | S n' => let b := lfsr_bit poly seed in
            let '(bs, s) := lfsr_loop poly (b :: removelast seed) n' in
            (b :: bs, s)
  end.

(** CommDspy/tx/prbs_generator.py:4-38.  [np.ceil(output_length/prbs_length)] is computed exactly
    (the double quotient is exact enough for any length below 2^53).  A zero-length polynomial
    divides by zero (line 21); [poly.dot(seed)] raises ValueError on a length mismatch. *)
Definition prbs_generator (poly seed : list Z) (output_length : Z) : res (list Z * list Z) :=
  let poly_size := length poly in
  let prbs_length := 2 ^ Z.of_nat poly_size - 1 in
  if prbs_length =? 0 then Raise ZeroDivisionError else
  let loop_length := Z.min output_length prbs_length in
  let rep_number := - ((- output_length) / prbs_length) in
  if (0 <? loop_length) && negb (length poly =? length seed)%nat then Raise ValueError else
  let '(single_bin, seed1) := lfsr_loop poly seed (Z.to_nat loop_length) in
  let multiple_bin := if 1 <? rep_number then tile (Z.to_nat rep_number) single_bin else single_bin in
  let sequence := slice_to multiple_bin output_length in
  let seed2 := if Z.of_nat (length seed1) <=? output_length
               then rev (slice_from sequence (-1 * Z.of_nat poly_size)) else seed1 in
  Ok (sequence, seed2).

(** CommDspy/tx/prbs_iterator.py:15-33: object state (poly_coeff, seed, seed_prev). *)
Record prbs_it := mk_it { it_poly : list Z ; it_seed : list Z ; it_prev : option (list Z) }.
(** prbs_iterator.py:15-18 *)
Definition it_init (poly seed : list Z) : prbs_it := mk_it poly seed None.
(** prbs_iterator.py:23-27 *)
Definition it_next (s : prbs_it) : res (Z * prbs_it) :=
  if (length (it_poly s) =? length (it_seed s))%nat then
    let single_patt := dotZ (it_poly s) (it_seed s) mod 2 in
    Ok (single_patt, mk_it (it_poly s) (single_patt :: removelast (it_seed s)) (Some (it_seed s)))
  else Raise ValueError.
(** prbs_iterator.py:29-33 *)
Definition it_get_seed (s : prbs_it) : list Z := it_seed s.
Definition it_get_prev_seed (s : prbs_it) : option (list Z) := it_prev s.
(** k successive next() calls. *)
Fixpoint it_run (k : nat) (s : prbs_it) : res (list Z * prbs_it) :=
  match k with
  | O => Ok ([], s)
  | S k' => r <- it_next s ;;
            rs <- it_run k' (snd r) ;;
            Ok (fst r :: fst rs, snd rs)
  end.
