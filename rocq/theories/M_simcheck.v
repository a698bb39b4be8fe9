(** Model of the pattern source and the bit error counter of the example link: PrbsData
    (example_simulation/simulation_parts/data_objects.py:4-9), PrbsGen (simulation_parts/transmitter.py:4-22) and Checker
    (example_simulation/analyzer/analyzer_classes.py:39-54).  Objects are records, methods return the new object together
    with the result; a method that raises leaves the object as it was at that point. *)
From Verif Require Import Py PyQ M_aux M_prbs M_lock.
From Coq Require Import QArith.
Open Scope Z_scope.

(** data_objects.py:4-9 *)
Record prbs_data := mk_pd { pd_type : prbs_type ; pd_poly : list Z ; pd_chunk : nat ; pd_seed : list Z }.
Definition prbs_data_init (t : prbs_type) (chunk : nat) (seed : option (list Z)) : prbs_data :=
  mk_pd t (get_polynomial t) chunk (match seed with Some s => s | None => map (fun _ => 1) (get_polynomial t) end).

(** transmitter.py:4-22; [pd_seed] is never None.  get_prev_seed (lines 21-22) is not modelled: it reads the
    attribute seed_prev, which no method sets, so that every call raises AttributeError. *)
Record prbs_gen := mk_pg { pg_poly : list Z ; pg_chunk : nat ; pg_seed : list Z }.
Definition prbs_gen_init (d : prbs_data) : prbs_gen := mk_pg (pd_poly d) (pd_chunk d) (pd_seed d).
Definition prbs_gen_next (g : prbs_gen) : prbs_gen * res (list Z) :=
  match prbs_generator (pg_poly g) (pg_seed g) (Z.of_nat (pg_chunk g)) with
  | Ok (chunk, sd) => (mk_pg (pg_poly g) (pg_chunk g) sd, Ok chunk)
  | Raise e => (g, Raise e)
  end.
Definition prbs_gen_seed (g : prbs_gen) : res (list Z) := Ok (pg_seed g).
(** k successive chunks, in order; stops at the first exception. *)
Fixpoint prbs_gen_run (k : nat) (g : prbs_gen) : prbs_gen * res (list (list Z)) :=
  match k with
  | O => (g, Ok [])
  | S k' => match prbs_gen_next g with
            | (g1, Ok c) => match prbs_gen_run k' g1 with (g2, Ok l) => (g2, Ok (c :: l)) | (g2, Raise e) => (g2, Raise e) end
            | (g1, Raise e) => (g1, Raise e)
            end
  end.

(** analyzer_classes.py:39-45 *)
Record checker := mk_ck {
  ck_type : prbs_type ; ck_vec : list Z ; ck_seqs : list (list Z) ; ck_errors : Z ; ck_symbols : Z }.
Definition checker_init (d : prbs_data) : res checker :=
  r <- prbs_generator (pd_poly d) (pd_seed d) (2 ^ Z.of_nat (prbs_value (pd_type d)) - 1) ;;
  Ok (mk_ck (pd_type d) (fst r) [] 0 0).
(** analyzer_classes.py:47-54; loss_th keeps its default 100.  All updates come after the only call that can raise. *)
Definition check_ber (ck : checker) (bit_vec : list Z) : checker * res Q :=
  match prbs_checker (ck_type ck) bit_vec false 100 (Some (ck_vec ck)) with
  | Raise e => (ck, Raise e)
  | Ok (_, _, error_bit) =>
    (mk_ck (ck_type ck) (ck_vec ck) (ck_seqs ck ++ [bit_vec]) (ck_errors ck + count_true error_bit) (ck_symbols ck + Z.of_nat (length error_bit)),
     match length error_bit with O => Raise ZeroDivisionError | n => Ok (count_true error_bit # Pos.of_nat n)%Q end)
  end.
(** A history of calls, exceptions included. *)
Fixpoint check_all (ck : checker) (chunks : list (list Z)) : checker * list (res Q) :=
  match chunks with
  | [] => (ck, [])
  | c :: l => let (ck1, r) := check_ber ck c in let (ck2, rs) := check_all ck1 l in (ck2, r :: rs)
  end.
