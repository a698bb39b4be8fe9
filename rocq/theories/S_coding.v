(** Specification vocabulary for line codes. *)
From Verif Require Import Py.

(** Number of ones among the first [n] bits. *)
Definition ones (x : list Z) (n : nat) : nat := length (filter (Z.eqb 1) (firstn n x)).
(** Signs of the marks (non-zero levels) of a ternary stream given as symbols 0,1,2 (levels -1,0,+1). *)
Definition marks (y : list Z) : list Z := filter (fun s => negb (s =? 0)) (map (fun v => v - 1) y).
(** The nearest mark before / after position [i], if any. *)
Definition prev_mark (y : list Z) (i : nat) : option Z := hd_error (rev (marks (firstn i y))).
Definition next_mark (y : list Z) (i : nat) : option Z := hd_error (marks (skipn (S i) y)).
Definition same_mark (o : option Z) (s : Z) : bool := match o with Some v => v =? s | None => false end.
(** Position [i] carries a mark that violates the alternation rule with the previous or next mark. *)
Definition violates (y : list Z) (i : nat) : bool :=
  let s := nth i y 1 - 1 in
  negb (s =? 0) && (same_mark (prev_mark y i) s || same_mark (next_mark y i) s).
(** All marks up to and including position [i] have the sign of the mark at [i]. *)
Definition in_first_run (y : list Z) (i : nat) : bool :=
  forallb (Z.eqb (nth i y 1 - 1)) (marks (firstn i y)).
(** Symbol at [p] replaced by [e]. *)
Definition replace_at {A} (p : nat) (e : A) (y : list A) : list A :=
  map (fun iv => if (fst iv =? p)%nat then e else snd iv) (combine (seq 0 (length y)) y).
(** Number of zeros minus number of ones among the first [n] bits. *)
Definition disparity (y : list Z) (n : nat) : Z := Z.of_nat n - 2 * fold_right Z.add 0 (firstn n y).
(** The MLT-3 level after [n] ones: the cycle 0,1,2,1 started from level 0. *)
Definition mlt_level (n : nat) : Z := nth (n mod 4) [0; 1; 2; 1] 0.
