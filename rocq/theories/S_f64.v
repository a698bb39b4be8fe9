(** Specification of C74: what "nearest level" can mean when samples and levels are doubles.  A double stands for the real
    number [val]; nothing here rounds. *)
From Coq Require Import ZArith Reals.
From Flocq Require Import Core BinarySingleNaN.
From Verif Require Import Py M_f64.
Import List.
Open Scope R_scope.

(** Two to an integer power. *)
Definition two (e : Z) : R := bpow radix2 e.
(** Finite and at most 2^1022 in magnitude, so that no difference overflows. *)
Definition fine (x : f64) : Prop := is_finite x = true /\ Rabs (val x) <= two 1022.
Definition distance (x l : f64) : R := Rabs (val x - val l).
(** The level with index i. *)
Definition level (levels : list f64) (i : nat) : f64 := nth i levels B754_nan.
Definition increasing (levels : list f64) : Prop := forall i j, (i < j < length levels)%nat -> val (level levels i) < val (level levels j).
