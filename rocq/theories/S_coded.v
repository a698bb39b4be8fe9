(** Vocabulary for the statements about the example link with codes. *)
From Coq Require Import Reals String QArith.
From Verif Require Import Py PyQ B_list M_aux M_symbol M_sim S_sim S_linear M_simcheck M_rxloop M_link S_full.
Import List.
Open Scope nat_scope.

(** [k] line bits per symbol, a symbol for each value of [k] bits, no code on symbols; chunks of [n] symbols. *)
Definition whole_symbols (cd : coding_data) (c : constellation) (k n : nat) : Prop :=
  no_symbol_code cd /\ 1 <= k /\ (bps cd == inject_Z (Z.of_nat k))%Q /\ length (get_levels c) = 2 ^ k /\
  (k = 1 \/ n <> 1 \/ (inv_msb (cflags cd) = false /\ inv_lsb (cflags cd) = false /\ bit_order_inv (cflags cd) = false)).
(** Three levels, one line digit 0, 1, 2 per symbol, no code on symbols. *)
Definition ternary_symbols (cd : coding_data) (c : constellation) : Prop :=
  no_symbol_code cd /\ (0 < bps cd <= 1)%Q /\ length (get_levels c) = 3 /\ ((bps cd == 1)%Q -> pn_inv (cflags cd) = false).
(** One of the codes whose decoder looks at [ln] line bits at a time and turns them into [mb] bits: none, Manchester,
    differential Manchester, a linear block code with different codewords for different words. *)
Definition block_code (cd : coding_data) (ln mb : nat) : Prop :=
  (binary_codes cd = codes [] /\ ln = 1 /\ mb = 1) \/
  ((binary_codes cd = codes [1] \/ binary_codes cd = codes [4]) /\ ln = 2 /\ mb = 1) \/
  (binary_codes cd = codes [5] /\ 0 < mb /\ 0 < ln /\ exists G, gmat cd = GArray G /\ bits (data G) /\ shape G = [mb; ln] /\ wf_nda G /\
     forall u v, length u = mb -> bits u -> length v = mb -> bits v -> codeword mb ln (data G) u = codeword mb ln (data G) v -> u = v).
(** The bits handed to the transmitter in [n] calls, in chunks of [nb]. *)
Definition sent (s : link_settings) (nb n : nat) (bs : list (list Z)) : Prop :=
  (exists g, prbs_gen_run n (prbs_gen_init (prbs_data_init (ls_prbs s) nb (ls_seed s))) = (g, Ok bs)) /\
  length bs = n /\ Forall (fun b => bits b /\ length b = nb) bs.
(** Channels of the statements: pulse shaping without or with noise of at most [d]. *)
Definition channel_ok (s : link_settings) (d : R) (l : full_link) (n : nat) (normal : nat -> nat -> R) : Prop :=
  ls_type s = "awgn"%string -> link_noise_at_most d l n normal.
(** Sum of the bits of a chunk, modulo 2. *)
Definition parity (b : list Z) : Z := (fold_right Z.add 0 b mod 2)%Z.
