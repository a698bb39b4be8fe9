(** Model of the documented scripts "tx_example" and "Genie error checker" (README.md:38-72 and 384-424, the same functions in
    test/example_scripts/example_runs.py:8-38 and 331-370) in IEEE-754 double precision: pattern generation, mapping to levels,
    slicing, demapping, conversion to bits and error counting.  Pulse, channel and equaliser between the two are not part of
    it: the samples at the slicer are arbitrary doubles. *)
From Coq Require Import ZArith Reals.
From Flocq Require Import Core BinarySingleNaN.
From Verif Require Import Py PyQ M_aux M_prbs M_symbol M_coding M_lock M_f64 M_eq64.
Import List ListNotations.
Open Scope Z_scope.

Definition sqrt64 (x : f64) : f64 := Bsqrt mode_NE x.
(** CommDspy/auxiliary.py:29-49.  The integer levels of full_scale=False are doubles here (they are small integers, so that
    all their sums, differences and quotients by their distance are the same). *)
Definition levels64 (c : constellation) (full_scale : bool) : list f64 :=
  let lv := get_levels c in
  if full_scale then
    let mean := div64 (fold_left add64 (map (fun z => of_int (z * z) 0) lv) (of_int 0 0)) (of_int (Z.of_nat (length lv)) 0) in
    map (fun z => div64 (of_int z 0) (sqrt64 mean)) lv
  else map (fun z => of_int z 0) lv.
(** [np.min] of levels (no nan among them). *)
Definition min64 (x y : f64) : f64 := if Bltb x y then x else y.
(** CommDspy/rx/demapping.py:31 for either kind of levels. *)
Definition level_index64 (lv : list f64) (x : f64) : Z :=
  ZnearestE (val (div64 (sub64 x (fold_right min64 (hd B754_nan lv) lv)) (sub64 (nth 1 lv B754_nan) (nth 0 lv B754_nan)))).
(** CommDspy/rx/demapping.py:4-34 without pn_inv. *)
Definition demap64 (c : constellation) (full_scale : bool) (signal : nda f64) : res (nda Z) :=
  fst (demapping_with (fun x : f64 => Bopp x) (level_index64 (levels64 c full_scale)) (length (levels64 c full_scale)) false signal).

(** README.md:41-69, example_runs.py:8-38: the bits and the transmitted levels. *)
Definition tx_example (t : prbs_type) (seed : list Z) (prbs_len k : nat) (f : flags) (c : constellation) (full_scale gray : bool) : res (list Z * list f64) :=
  g <- prbs_generator (get_polynomial t) seed (Z.of_nat (prbs_len * k)) ;;
  p <- bin2symbol (fst g) (2 ^ Z.of_nat k) f ;;
  p <- (if gray then coding_gray c (vec p) else Ok (vec p)) ;;
  y <- mapping (fun x : f64 => Bopp x) (levels64 c full_scale) None false p ;;
  Ok (fst g, data y).
(** README.md:403-416, example_runs.py:347-359: from the slicer input to the bits.  [fs_slicer] and [fs_demap] are the
    full_scale arguments of get_levels and of demapping. *)
Definition received_bits (k : nat) (f : flags) (c : constellation) (fs_slicer fs_demap gray : bool) (rx : list f64) : res (list Z) :=
  s <- slicer64 (levels64 c fs_slicer) rx ;;
  d <- demap64 c fs_demap (vec s) ;;
  d <- (if gray then decoding_gray c d else Ok d) ;;
  symbol2bin (data d) (2 ^ Z.of_nat k) f.
(** README.md:420, example_runs.py:363. *)
Definition genie_checker (t : prbs_type) (k : nat) (f : flags) (c : constellation) (fs_slicer fs_demap gray : bool) (rx : list f64) (loss_th : Z) : res (bool * Z * list bool) :=
  b <- received_bits k f c fs_slicer fs_demap gray rx ;;
  prbs_checker t b false loss_th None.
