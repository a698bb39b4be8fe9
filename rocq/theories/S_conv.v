(** Specification vocabulary for convolutional codes. *)
From Coq Require Import QArith.
From Verif Require Import Py B_list S_aux S_linear M_conv.
Open Scope Z_scope.

(** Content history of a feedback shift register over GF(2), latest bit first: at every step the input bit
    plus the tapped old contents enters the register.  [f] are the taps (f_1, f_2, ...), [init] the initial
    content. *)
Fixpoint reg_hist (f init : list Z) (x : nat -> Z) (t : nat) : list Z :=
  match t with
  | O => init
  | S t' => (x t' + dotZ f (reg_hist f init x t')) mod 2 :: reg_hist f init x t'
  end.
(** Generator polynomial from input [i] to output [j]. *)
Definition poly (c : conv_code) (i j : nat) : list Z := nth j (nth i (gen c) []) [].
(** Feedback taps of the shift register of input [i] as seen by output [j]. *)
Definition fb_taps (c : conv_code) (i : nat) : list Z := match fb_get c i with Some f => tl f | None => [] end.
Definition out_taps (c : conv_code) (i j : nat) : list Z :=
  if (uf_get c i j =? 0) && negb (length (poly c i j) =? 1)%nat then [] else fb_taps c i.
(** Bit [t] of input [i] in the serial pattern [u] (zero-padded). *)
Definition in_bit (c : conv_code) (u : list Z) (i t : nat) : Z := nth (t * length (gen c) + i) u 0.
(** Output bit [j] at time [t] when the register of input [i] starts as [init i]: the parity over all
    inputs of the polynomial applied to the register. *)
Definition conv_bit (c : conv_code) (init : nat -> list Z) (u : list Z) (t j : nat) : Z :=
  (sumZ (map (fun i => dotZ (poly c i j) (reg_hist (out_taps c i j) (init i) (in_bit c u i) (S t)))
     (seq 0 (length (gen c))))) mod 2.
(** The encoded stream: for every time the outputs in order. *)
Definition conv_steps (c : conv_code) (u : list Z) : nat := ((length u + length (gen c) - 1) / length (gen c))%nat.
Definition conv_from (c : conv_code) (init : nat -> list Z) (u : list Z) : list Z :=
  concat (map (fun t => map (conv_bit c init u t) (seq 0 (n_out c))) (seq 0 (conv_steps c u))).

(** Number of memory cells of input [i], and the registers packed in one state vector. *)
Definition cells (c : conv_code) (i : nat) : nat := (length (poly c i 0) - 1)%nat.
Definition all_cells (c : conv_code) : nat := fold_right Nat.add 0%nat (map (cells c) (seq 0 (length (gen c)))).
Definition cells_before (c : conv_code) (i : nat) : nat := fold_right Nat.add 0%nat (map (cells c) (seq 0 i)).
Definition unpack (c : conv_code) (st : list Z) (i : nat) : list Z := firstn (cells c i) (skipn (cells_before c i) st).
Definition zero_regs : nat -> list Z := fun _ => [].
(** Register contents after encoding [t] chunks of [u] from state [st]. *)
Definition state_after (c : conv_code) (st u : list Z) (t : nat) : list Z :=
  concat (map (fun i => firstn (cells c i) (reg_hist (fb_taps c i) (unpack c st i) (in_bit c u i) t)) (seq 0 (length (gen c)))).

(** The arrays have the shapes the functions expect and hold bits; a feedback polynomial starts with 1. *)
Record code_shape (c : conv_code) : Prop := {
  cs_in : gen c <> [] ;
  cs_out : (0 < n_out c)%nat ;
  cs_rows : forall i, (i < length (gen c))%nat -> length (nth i (gen c) []) = n_out c ;
  cs_cols : forall i j, (i < length (gen c))%nat -> (j < n_out c)%nat ->
     length (poly c i j) = length (poly c i 0) /\ (0 < length (poly c i 0))%nat /\ bits (poly c i j) ;
  cs_fb : forall fl, fdb c = Some fl -> length fl = length (gen c) /\
     Forall (fun o => forall f, o = Some f -> bits f /\ nth 0 f 0 = 1) fl ;
  cs_uf : forall m, ufb c = Some m -> length m = length (gen c) /\ Forall (fun r => length r = n_out c /\ bits r) m }.
(** What the trellis of the decoders needs in addition: feedback polynomials as long as the generators, and,
    as soon as a feedback dictionary is given, no delayed taps on an input without feedback. *)
Definition trellis_shape (c : conv_code) : Prop :=
  (forall i f, (i < length (gen c))%nat -> fb_get c i = Some f -> length f = length (poly c i 0)) /\
  (fdb c <> None -> forall i j, (i < length (gen c))%nat -> (j < n_out c)%nat -> fb_get c i = None -> Forall (eq 0) (tl (poly c i j))).

(** [st] is a state: one bit per memory cell. *)
Definition isstate (c : conv_code) (st : list Z) : Prop := length st = all_cells c /\ bits st.
Definition isinput (c : conv_code) (i : list Z) : Prop := length i = length (gen c) /\ bits i.
(** Number of (start state, input word) pairs whose output is at distance [d] of [r]. *)
Definition pairs_at (c : conv_code) (K : nat) (r : list Z) (d : nat) : nat :=
  length (filter (fun p => (hdist (conv_from c (unpack c (fst p)) (snd p)) r =? d)%nat)
     (list_prod (words (all_cells c)) (words K))).
(** States in which a transmission of the inputs [w] (from any state) can end when it has the outputs [blk]; and the error
    probability reported for [n] equally likely candidates. *)
Definition ends_in (c : conv_code) (T : nat) (w blk e : list Z) : Prop :=
  exists s, isstate c s /\ conv_from c (unpack c s) w = blk /\ state_after c s w T = e.
Definition tie_prob (n : nat) : Q := if (n =? 1)%nat then 0%Q else (1 # Pos.of_nat n)%Q.
(** Binary generators of the same number of outputs and binary feedback polynomials. *)
Definition binary_code (c : conv_code) : Prop :=
  gen c <> [] /\ (forall i, (i < length (gen c))%nat -> length (nth i (gen c) []) = n_out c) /\
  (forall i j, (i < length (gen c))%nat -> (j < n_out c)%nat -> bits (poly c i j)) /\
  (forall fl f, fdb c = Some fl -> In (Some f) fl -> bits f).
(** Feedback settings that belong together: use_feedback is given, has one entry per input and output, asks for feedback
    only where there is a polynomial, and every generator with delayed taps of an input with feedback uses it. *)
Definition feedback_fits (c : conv_code) : Prop :=
  fdb c = None \/
  exists uf, ufb c = Some uf /\ length uf = length (gen c) /\ length (nth 0 uf []) = n_out c /\
    forall i j, (i < length (gen c))%nat -> (j < n_out c)%nat ->
      (get2 uf i j = 1 -> fb_get c i <> None) /\ (get2 uf i j = 0 -> fb_get c i <> None -> Forall (eq 0) (tl (poly c i j))).
