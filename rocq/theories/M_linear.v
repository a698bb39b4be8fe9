(** Model of linear block coding: CommDspy/tx/coding.py:157-185, CommDspy/rx/decoding.py:145-190, 347-353
    and CommDspy/misc/ml_decoding.py:4-29.
    Patterns hold exact integers in a signed type (differences do not wrap). *)
From Verif Require Import Py M_aux M_coding.
From Coq Require Import QArith.
Open Scope Z_scope.

(** Rows of a k x n matrix stored row-major. *)
Definition mat_rows (k n : nat) (d : list Z) : list (list Z) := map (fun i => firstn n (skipn (i * n) d)) (seq 0 k).
(** [row.dot(M)] for a matrix given by its rows, [n] columns. *)
Definition vec_mat (n : nat) (row : list Z) (rows : list (list Z)) : list Z :=
  map (fun j => dotZ row (map (fun r => nth j r 0) rows)) (seq 0 n).
(** [... % 2] elementwise *)
Definition mod2 (l : list Z) : list Z := map (fun v => v mod 2) l.

(** CommDspy/tx/coding.py:157-185.  G that is not 2-D fails in the unpacking of line 177; k = 0 in [%]. *)
Definition coding_linear (pattern : list Z) (G : nda Z) : res (list Z) :=
  _ <- check_binary pattern ;;
  _ <- check_binary (data G) ;;
  match shape G with
  | [k; n] =>
    if (k =? 0)%nat then Raise ZeroDivisionError else
    let padding := (if (0 <? length pattern mod k)%nat then k - (length pattern mod k) else 0)%nat in
    let pattern_padded := pattern ++ repeat 0 padding in
    pattern_blocks <- reshape_rows k pattern_padded ;;
    Ok (concat (map (fun b => mod2 (vec_mat n b (mat_rows k n (data G)))) pattern_blocks))
  | _ => Raise ValueError
  end.

(** [np.min] *)
Definition np_min (l : list Z) : res Z := match l with [] => Raise ValueError | x :: l' => Ok (fold_left Z.min l' x) end.

(** CommDspy/misc/ml_decoding.py:6,24-29 for one block, error_prob=False.  (All array operations of
    ml_decoding act on each column of [hamming] separately, so the model works block by block.) *)
Definition ml_block (perms codebook : list (list Z)) (blk : list Z) : res (list Z) :=
  idx <- argmin (hamming_col codebook blk) ;; np_get perms (Z.of_nat idx).
Definition ml_decoding (perms codebook blocks : list (list Z)) : res (list Z) :=
  d <- map_res (ml_block perms codebook) blocks ;; Ok (concat d).
(** CommDspy/misc/ml_decoding.py:6-27 for one block, error_prob=True: decoded word, p_err entry, and the
    new content of the block in the caller's array (line 18 assigns into a view of it). *)
Definition ml_block_ep (perms codebook : list (list Z)) (blk : list Z) : res (list Z * Q * list Z) :=
  let col := hamming_col codebook blk in
  mn <- np_min col ;;
  let not_codeword := 0 <? mn in
  correct_idx <- argmin col ;;
  cw <- np_get codebook (Z.of_nat correct_idx) ;;
  let blk' := if not_codeword then cw else blk in
  let p := if not_codeword then (1 # Pos.of_nat (length (filter (Z.eqb mn) col)))%Q else 0%Q in
  let col' := if not_codeword then set_nth correct_idx 0 col else col in
  idx <- argmin col' ;;
  d <- np_get perms (Z.of_nat idx) ;;
  Ok (d, p, blk').
Definition ml_decoding_ep (perms codebook blocks : list (list Z)) : res (list Z * list Q * list (list Z)) :=
  l <- map_res (ml_block_ep perms codebook) blocks ;;
  Ok (concat (map (fun t => fst (fst t)) l), map (fun t => snd (fst t)) l, map snd l).

(** CommDspy/rx/decoding.py:347-353; the same code is inlined at rx/decoding.py:182-186. *)
Definition trunc_reshape (l : list Z) (block_len : nat) : res (list (list Z)) :=
  if (block_len =? 0)%nat then Raise ZeroDivisionError
  else if negb (length l mod block_len =? 0)%nat
  then reshape_rows block_len (slice_to l (-1 * Z.of_nat (length l mod block_len)))
  else reshape_rows block_len l.

(** CommDspy/rx/decoding.py:177-178 *)
Definition linear_codebook (k n : nat) (G : list Z) : list (list Z) :=
  map (fun u => mod2 (vec_mat n u (mat_rows k n G))) (get_bin_perm k).
(** CommDspy/rx/decoding.py:145-190, error_prob=False *)
Definition decoding_linear (pattern : list Z) (G : nda Z) : res (list Z) :=
  _ <- check_binary pattern ;;
  _ <- check_binary (data G) ;;
  match shape G with
  | [k; n] =>
    pattern_block <- trunc_reshape pattern n ;;
    ml_decoding (get_bin_perm k) (linear_codebook k n (data G)) pattern_block
  | _ => Raise ValueError
  end.
(** CommDspy/rx/decoding.py:145-190, error_prob=True: (decoded, p_err, content of the caller's [pattern]
    array after the call: pattern_block is a view of it, the trailing residual is not part of the view). *)
Definition decoding_linear_ep (pattern : list Z) (G : nda Z) : res (list Z * list Q * list Z) :=
  _ <- check_binary pattern ;;
  _ <- check_binary (data G) ;;
  match shape G with
  | [k; n] =>
    pattern_block <- trunc_reshape pattern n ;;
    r <- ml_decoding_ep (get_bin_perm k) (linear_codebook k n (data G)) pattern_block ;;
    let '(dec, p, blocks') := r in
    Ok (dec, p, concat blocks' ++ skipn (length pattern - length pattern mod n) pattern)
  | _ => Raise ValueError
  end.
