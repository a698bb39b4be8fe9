(** Vocabulary for the statements about the Viterbi decoder on arbitrary received bits. *)
From Verif Require Import Py M_aux M_conv S_conv.
Import List ListNotations.
Open Scope Z_scope.

(** The input [u] takes the encoder from state [s] to state [e] and puts out [o]. *)
Definition goes (c : conv_code) (s u o e : list Z) : Prop :=
  isstate c s /\ isinput c u /\ state_after c s u 1 = e /\ conv_from c (unpack c s) u = o.
(** A state that can be entered from every state, or from some state with outputs that are not all one. *)
Definition safe_entry (c : conv_code) (e : list Z) : Prop :=
  (forall s, isstate c s -> exists u o, goes c s u o e) \/
  (exists s, (exists u o, goes c s u o e) /\ forall u o, goes c s u o e -> o <> repeat 1 (n_out c)).
Definition safe_code (c : conv_code) : Prop := forall e, isstate c e -> safe_entry c e.
(** No input has more than one memory cell. *)
Definition one_cell (c : conv_code) : Prop := forall i, (i < length (gen c))%nat -> (cells c i <= 1)%nat.
