(** Vocabulary for C88: which symbol a sample belongs to. *)
From Verif Require Import Py M_aux S_estimfs.
From Coq Require Import Reals QArith Qabs.
Open Scope Z_scope.

(** The levels: lowest one, distance, number. *)
Definition lowest (c : constellation) : Z := match c with NRZ => -1 | OOK => 0 | PAM3 => -1 | PAM4 => -3 end.
Definition spacing (c : constellation) : Z := match c with NRZ => 2 | OOK => 1 | PAM3 => 1 | PAM4 => 2 end.
Definition level_count (c : constellation) : Z := match c with NRZ => 2 | OOK => 2 | PAM3 => 3 | PAM4 => 4 end.
(** The levels continued in both directions: number [k]. *)
Definition ladder (c : constellation) (k : Z) : Z := lowest c + k * spacing c.
(** [x] is nearer to number [k] than to all others, or half way between [k] and a neighbour, where [k] is the even one. *)
Definition belongs (c : constellation) (x : Q) (k : Z) : Prop :=
  (2 * Qabs (x - inject_Z (ladder c k)) < inject_Z (spacing c))%Q \/ ((2 * Qabs (x - inject_Z (ladder c k)) == inject_Z (spacing c))%Q /\ Z.even k = true).
(** The same for levels with mean power one. *)
Definition belongs_fs (c : constellation) (x : R) (k : Z) : Prop :=
  let d := Rabs (x - IZR (ladder c k) / level_rms c) in
  (2 * d < IZR (spacing c) / level_rms c)%R \/ ((2 * d = IZR (spacing c) / level_rms c)%R /\ Z.even k = true).
(** What numpy makes of position [k] in the table 0, ..., n-1. *)
Definition table_entry (c : constellation) (k : Z) : option Z :=
  if (0 <=? k) && (k <? level_count c) then Some k else if (- level_count c <=? k) && (k <? 0) then Some (k + level_count c) else None.
Definition demapped (c : constellation) (ks : list Z) (sh : list nat) : res (nda Z) :=
  if existsb (fun k => match table_entry c k with None => true | _ => false end) ks then Raise IndexError
  else Ok (mk_nda sh (map (fun k => match table_entry c k with Some s => s | None => 0 end) ks)).
