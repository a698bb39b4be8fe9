(** Vocabulary for the statements about the example link. *)
From Verif Require Import Py B_list M_aux M_symbol M_sim.
From Coq Require Import QArith.
Open Scope Z_scope.

(** The binary codes switched on, in program order: binary differential, Manchester, bipolar, MLT-3, differential
    Manchester, linear block, convolutional. *)
Definition binary_codes (cd : coding_data) : list bool :=
  [c_bin_diff cd; c_manchester cd; c_bipolar cd; c_mlt3 cd; c_diff_manchester cd; c_linear cd; c_conv cd].
(** Exactly the codes with the listed positions. *)
Definition codes (l : list nat) : list bool := map (fun k => existsb (Nat.eqb k) l) (seq 0 7).
Definition no_symbol_code (cd : coding_data) : Prop := c_gray cd = false /\ c_diff cd = false.
(** [n] line bits fill whole symbols: one bit per symbol, or k >= 2 bits per symbol with k dividing n and, in case
    they fill only one symbol, none of the flags on which symbol2bin raises. *)
Definition fills_symbols (cd : coding_data) (n : nat) : Prop :=
  (bps cd == 1)%Q \/
  exists k : nat, (2 <= k)%nat /\ (bps cd == inject_Z (Z.of_nat k))%Q /\ (n mod k = 0)%nat /\
    (n = k -> inv_msb (cflags cd) = false /\ inv_lsb (cflags cd) = false /\ bit_order_inv (cflags cd) = false).
Definition delivers (o : outcome (list Q)) (p : list Z) : Prop := o = Done (Ok (map inject_Z p)).
(** The chain runs (inside the model) and hands out something else than [p]: other data or an exception. *)
Definition misdelivers (o : outcome (list Q)) (p : list Z) : Prop := o <> Unmodelled /\ ~ delivers o p.
(** Chunks of [nb] bits become chunks of [n] symbols of the constellation. *)
Definition carries (cd : coding_data) (c : constellation) (nb n : nat) : Prop :=
  forall b, bits b -> length b = nb -> exists s, encoder cd b = Done (Ok s) /\ length s = n /\ Forall (fun v => 0 <= v < Z.of_nat (length (get_levels c))) s.
(** What the decoder makes of chunks of symbols, one after the other; the first exception ends it. *)
Fixpoint decode_all (cd : coding_data) (rs : list (list Z)) : outcome (list (list Q)) :=
  match rs with
  | [] => Done (Ok [])
  | r :: rs' => obind (decoder cd r) (fun d => obind (decode_all cd rs') (fun ds => Done (Ok (d :: ds))))
  end.
