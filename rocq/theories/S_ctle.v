(** Vocabulary for C53: complex numbers, transfer functions. *)
From Coq Require Import Reals.
From Verif Require Import Py.
Import List.
Open Scope R_scope.

Definition Cx : Type := (R * R)%type.
Definition cre (a : R) : Cx := (a, 0).
Definition cadd (x y : Cx) : Cx := (fst x + fst y, snd x + snd y).
Definition copp (x : Cx) : Cx := (- fst x, - snd x).
Definition csub (x y : Cx) : Cx := (fst x - fst y, snd x - snd y).
Definition cmul (x y : Cx) : Cx := (fst x * fst y - snd x * snd y, fst x * snd y + snd x * fst y).
(** Squared absolute value. *)
Definition cabs2 (x : Cx) : R := fst x * fst x + snd x * snd x.
(** Value of the polynomial with real coefficients [l] (constant term first). *)
Fixpoint ceval (l : list R) (x : Cx) : Cx := match l with [] => cre 0 | c :: l => cadd (cre c) (cmul x (ceval l x)) end.
Fixpoint cprod (l : list Cx) : Cx := match l with [] => cre 1 | c :: l => cmul c (cprod l) end.
(** The product of (1 + s/|f|) over the frequencies: the normalised zero (or pole) polynomial at [s]. *)
Definition corner_product (freqs : list R) (s : Cx) : Cx := cprod (map (fun f => cadd (cre 1) (cmul (cre (/ Rabs f)) s)) freqs).
Definition prod_R (l : list R) : R := fold_right Rmult 1 l.
Definition sum_of (l : list R) : R := fold_right Rplus 0 l.
(** The gain in linear scale, the scale of the bilinear map s = k (1 - x) / (1 + x). *)
Definition linear_gain (dc : R) : R := Rpower 10 (dc / 20).
Definition corner_at (freqs : list R) (k : R) : R := prod_R (map (fun f => 1 + k / Rabs f) freqs).
(** Designs with at least one zero and one pole, frequencies not zero, and a response to the first sample above 1e-14. *)
Definition design (zeros poles : list R) (dc fs osr : R) : Prop :=
  zeros <> [] /\ poles <> [] /\ Forall (fun f => f <> 0) zeros /\ Forall (fun f => f <> 0) poles /\ 0 < fs * osr /\
  1 / 10 ^ 14 < linear_gain dc * corner_at zeros (2 * (fs * osr)) / corner_at poles (2 * (fs * osr)).
