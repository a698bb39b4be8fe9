(** Python / numpy primitives used by the models.

    These definitions describe the behaviour of the python language and of numpy, not of CommDspy
    code; they are the vocabulary in which the CommDspy functions are transcribed. *)
From Coq Require Export List ZArith Lia Bool Arith.
Export ListNotations.
Open Scope Z_scope.

(** Exceptions that the modelled code can raise. *)
Inductive exn :=
| ValueError | IndexError | TypeError | ZeroDivisionError
| UnboundLocalError | AttributeError | KeyError.

(** Result of a python call: a value, or an exception. *)
Inductive res (A : Type) := Ok (a : A) | Raise (e : exn).
Arguments Ok {A} a.
Arguments Raise {A} e.

Definition bind {A B} (r : res A) (f : A -> res B) : res B :=
  match r with Ok a => f a | Raise e => Raise e end.
Notation "x <- e ;; f" := (bind e (fun x => f)) (at level 80, e at next level, right associativity).

(** Left-to-right evaluation of a list of calls; the first exception wins. *)
Fixpoint map_res {A B} (f : A -> res B) (l : list A) : res (list B) :=
  match l with
  | [] => Ok []
  | a :: l' => b <- f a ;; bs <- map_res f l' ;; Ok (b :: bs)
  end.

(** An n-dimensional numpy array: shape and the elements in row-major (C) order. *)
Record nda (A : Type) := mk_nda { shape : list nat ; data : list A }.
Arguments mk_nda {A} _ _.
Arguments shape {A} _.
Arguments data {A} _.
Definition size (sh : list nat) : nat := fold_right Nat.mul 1%nat sh.
Definition wf_nda {A} (a : nda A) : Prop := length (data a) = size (shape a).
(** A 1-D array. *)
Definition vec {A} (l : list A) : nda A := mk_nda [length l] l.

(** Python/numpy index resolution for an axis of length [n]: negative indices wrap once. *)
Definition np_index (n : nat) (i : Z) : option nat :=
  if (0 <=? i) && (i <? Z.of_nat n) then Some (Z.to_nat i)
  else if (- Z.of_nat n <=? i) && (i <? 0) then Some (Z.to_nat (i + Z.of_nat n))
  else None.

(** [l[i]] with an integer index. *)
Definition np_get {A} (l : list A) (i : Z) : res A :=
  match np_index (length l) i with
  | Some k => match nth_error l k with Some a => Ok a | None => Raise IndexError end
  | None => Raise IndexError
  end.

(** Fancy indexing [l[idx]] with an integer array. *)
Definition np_take {A} (l : list A) (idx : list Z) : res (list A) := map_res (np_get l) idx.

(** Slice bounds: negative bounds count from the end, then clamp to [0, n]. *)
Definition slice_bound (n : nat) (i : Z) : nat :=
  if i <? 0 then Z.to_nat (i + Z.of_nat n) else Nat.min (Z.to_nat i) n.
(** [l[:i]] and [l[i:]]. *)
Definition slice_to {A} (l : list A) (i : Z) : list A := firstn (slice_bound (length l) i) l.
Definition slice_from {A} (l : list A) (i : Z) : list A := skipn (slice_bound (length l) i) l.

(** [np.arange(a, b, s)] on integers; a zero step raises ZeroDivisionError. *)
Definition arange (a b s : Z) : res (list Z) :=
  if s =? 0 then Raise ZeroDivisionError
  else Ok (map (fun k => a + Z.of_nat k * s) (seq 0 (Z.to_nat (- ((a - b) / s))))).

(** [np.tile(l, n)] for 1-D [l]. *)
Definition tile {A} (n : nat) (l : list A) : list A := concat (repeat l n).

(** The full blocks of length [k] of a flat array (row-major rows). *)
Definition chunks {A} (k : nat) (l : list A) : list (list A) :=
  map (fun i => firstn k (skipn (i * k) l)) (seq 0 (length l / k)).

(** [np.reshape(l, [-1, k])]: numpy raises ValueError when the size is not a multiple of [k], and
    also for [k = 0] (unknown dimension with a zero dimension). *)
Definition reshape_rows {A} (k : nat) (l : list A) : res (list (list A)) :=
  if (k =? 0)%nat then Raise ValueError
  else if (length l mod k =? 0)%nat then Ok (chunks k l) else Raise ValueError.

(** [np.reshape(a, shape)] for a fully specified shape. *)
Definition reshape {A} (l : list A) (sh : list nat) : res (nda A) :=
  if (length l =? size sh)%nat then Ok (mk_nda sh l) else Raise ValueError.

(** Integer dot product; numpy raises ValueError on a length mismatch ([dot] below is the sum). *)
Fixpoint dotZ (u v : list Z) : Z :=
  match u, v with
  | a :: u', b :: v' => a * b + dotZ u' v'
  | _, _ => 0
  end.
Definition sumZ (l : list Z) : Z := fold_right Z.add 0 l.

(** [np.argmin] / [np.argmax] on integers: index of the first extremal entry. *)
Fixpoint argmin_from (best : Z) (bi : nat) (i : nat) (l : list Z) : nat :=
  match l with
  | [] => bi
  | x :: l' => if x <? best then argmin_from x i (S i) l' else argmin_from best bi (S i) l'
  end.
Definition argmin (l : list Z) : res nat :=
  match l with [] => Raise ValueError | x :: l' => Ok (argmin_from x 0 1 l') end.
Definition argmax (l : list Z) : res nat := argmin (map Z.opp l).

(** Pointwise binary operation (equal lengths assumed; truncates like zip). *)
Fixpoint map2 {A B C} (f : A -> B -> C) (u : list A) (v : list B) : list C :=
  match u, v with
  | a :: u', b :: v' => f a b :: map2 f u' v'
  | _, _ => []
  end.
