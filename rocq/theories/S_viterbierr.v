(** Vocabulary for the statements about the Viterbi decoder on a stream with errors. *)
From Verif Require Import Py M_aux S_aux M_conv S_conv S_viterbitot.
Import List ListNotations.
Open Scope Z_scope.

(** Of all transitions into the state [e], the one from [s] by the input [u] with the outputs [o] is closest to the received
    chunk; among equally close ones it comes from the state with the lowest number. *)
Definition preferred (c : conv_code) (ch e s u o : list Z) : Prop :=
  goes c s u o e /\
  forall s' u' o', goes c s' u' o' e -> s' <> s ->
    (hdist o ch < hdist o' ch)%nat \/ (hdist o ch = hdist o' ch /\ val_msb s < val_msb s').
(** A path through the trellis that takes the preferred transition into every state it passes: it starts in [s0], ends
    in [e], has the inputs [w], and [D] of its outputs differ from the received chunks. *)
Inductive traced (c : conv_code) (s0 : list Z) : list (list Z) -> list Z -> list Z -> nat -> Prop :=
| traced_nil : isstate c s0 -> traced c s0 [] s0 [] 0
| traced_snoc : forall chs s w D ch e u o, traced c s0 chs s w D -> preferred c ch e s u o ->
    traced c s0 (chs ++ [ch]) e (w ++ u) (D + hdist o ch).
(** The best of these paths over all end states; among equally good ones the end state with the lowest number. *)
Definition best_traced (c : conv_code) (chs : list (list Z)) (s0 e w : list Z) (D : nat) : Prop :=
  traced c s0 chs e w D /\
  forall s0' e' w' D', traced c s0' chs e' w' D' -> e' <> e -> (D < D')%nat \/ (D = D' /\ val_msb e < val_msb e').

(** Any two transitions from different states into the same state differ in at least [d] outputs. *)
Definition merge_distance (c : conv_code) (d : nat) : Prop :=
  forall s u o s' u' o' e, goes c s u o e -> goes c s' u' o' e -> s <> s' -> (d <= hdist o o')%nat.
(** Transitions from the same state with the same outputs lead to the same state. *)
Definition outputs_decide (c : conv_code) : Prop :=
  forall s u o e u' e', goes c s u o e -> goes c s u' o e' -> e = e'.
(** Two paths of the same length, with the output chunks [os] and [os'], that are never in the same state at the same time. *)
Inductive apart (c : conv_code) : list Z -> list (list Z) -> list Z -> list (list Z) -> Prop :=
| apart_nil : forall s s', isstate c s -> isstate c s' -> s <> s' -> apart c s [] s' []
| apart_cons : forall s u o s1 os s' u' o' s1' os', s <> s' -> goes c s u o s1 -> goes c s' u' o' s1' -> apart c s1 os s1' os' ->
    apart c s (o :: os) s' (o' :: os').
(** Such paths over [L] chunks differ in at least [x] outputs. *)
Definition spread (c : conv_code) (L x : nat) : Prop :=
  forall s os s' os', apart c s os s' os' -> length os = L -> (x <= hdist (concat os) (concat os'))%nat.
(** After [m] chunks the state depends on the inputs alone. *)
Definition inputs_decide (c : conv_code) (m : nat) : Prop :=
  forall s s' w t, isstate c s -> isstate c s' -> (m <= t)%nat -> state_after c s w t = state_after c s' w t.
