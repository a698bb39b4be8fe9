(** numpy primitives on sample values.  Samples are exact rationals in lowest terms ([Qc]); every finite
    double is one of them.  Rounding of float operations, nan and infinities are not modelled here. *)
From Verif Require Import Py.
From Coq Require Export QArith Qcanon Qcabs.
Open Scope Z_scope.

Definition ofZ (z : Z) : Qc := Q2Qc (inject_Z z).
Definition Qcltb (x y : Qc) : bool := match Qccompare x y with Lt => true | _ => false end.
Definition Qcleb (x y : Qc) : bool := match Qccompare x y with Gt => false | _ => true end.
Definition Qceqb (x y : Qc) : bool := match Qccompare x y with Eq => true | _ => false end.
(** [np.sum], [np.dot] and [np.mean] (of a non-empty array). *)
Definition sumQ (l : list Qc) : Qc := fold_right Qcplus (ofZ 0) l.
Definition dotQ (u v : list Qc) : Qc := sumQ (map2 Qcmult u v).
Definition meanQ (l : list Qc) : Qc := (sumQ l / ofZ (Z.of_nat (length l)))%Qc.
(** [np.argmin] / [np.argmax] on samples: index of the first extremal entry; ValueError when empty. *)
Fixpoint argminQ_from (best : Qc) (bi : nat) (i : nat) (l : list Qc) : nat :=
  match l with
  | [] => bi
  | x :: l' => if Qcltb x best then argminQ_from x i (S i) l' else argminQ_from best bi (S i) l'
  end.
Definition argminQ (l : list Qc) : res nat :=
  match l with [] => Raise ValueError | x :: l' => Ok (argminQ_from x 0 1 l') end.
Definition argmaxQ (l : list Qc) : res nat := argminQ (map Qcopp l).
