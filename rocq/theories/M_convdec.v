(** Model of the convolutional decoders: CommDspy/rx/decoding.py:192-341. *)
From Verif Require Import Py M_aux M_coding M_linear M_conv.
From Coq Require Import QArith.
Open Scope Z_scope.

(** rx/decoding.py:236-252: one codebook row; the columns past the last full chunk stay 0. *)
Definition conv_cw (c : conv_code) (es : list trellis_entry) (tb_len : nat) (st u : list Z) : res (list Z) :=
  chs <- reshape_rows (length (gen c)) u ;;
  r <- trellis_walk es st chs ;;
  Ok (fst r ++ repeat 0 (tb_len - length (fst r))).
(** rx/decoding.py:231-252: start states in the outer loop, inputs in the inner one. *)
Definition conv_codebook (c : conv_code) (es : list trellis_entry) (tb_len : nat) : res (list (list Z)) :=
  let n_bits_in := (length (gen c) * (tb_len / n_out c))%nat in
  l <- map_res (fun st => map_res (conv_cw c es tb_len st) (get_bin_perm n_bits_in)) (get_bin_perm (mem_total c)) ;;
  Ok (concat l).
(** rx/decoding.py:260, [np.tile(inputs, [len(states), 1])] *)
Definition conv_perms (c : conv_code) (tb_len : nat) : list (list Z) :=
  tile (2 ^ mem_total c) (get_bin_perm (length (gen c) * (tb_len / n_out c))%nat).
(** rx/decoding.py:192-257, error_prob=False.  [tb_len // 0] on an array without outputs raises
    ZeroDivisionError; an empty dictionary raises KeyError. *)
Definition decoding_conv_ml (pattern : list Z) (c : conv_code) (tb_len : nat) : res (list Z) :=
  _ <- check_valid_conv pattern c ;;
  match gen c with [] => Raise KeyError | _ =>
  if (n_out c =? 0)%nat then Raise ZeroDivisionError else
  es <- trellis_entries c ;;
  codebook <- conv_codebook c es tb_len ;;
  pattern_block <- trunc_reshape pattern tb_len ;;
  ml_decoding (conv_perms c tb_len) codebook pattern_block
  end.
(** The same with error_prob=True: decoded bits, p_err, content of the caller's array afterwards. *)
Definition decoding_conv_ml_ep (pattern : list Z) (c : conv_code) (tb_len : nat) : res (list Z * list Q * list Z) :=
  _ <- check_valid_conv pattern c ;;
  match gen c with [] => Raise KeyError | _ =>
  if (n_out c =? 0)%nat then Raise ZeroDivisionError else
  es <- trellis_entries c ;;
  codebook <- conv_codebook c es tb_len ;;
  pattern_block <- trunc_reshape pattern tb_len ;;
  r <- ml_decoding_ep (conv_perms c tb_len) codebook pattern_block ;;
  let '(dec, p, blocks') := r in
  Ok (dec, p, concat blocks' ++ skipn (length pattern - length pattern mod tb_len) pattern)
  end.

(** *** Viterbi *)
(** misc/ml_decoding.py:80-90: the transition tensors; [-1] entries where no transition exists. *)
Definition out_tensor (c : conv_code) (es : list trellis_entry) (ii jj : nat) : list Z :=
  match io_get es (uint2bin (mem_total c) (Z.of_nat ii)) (uint2bin (mem_total c) (Z.of_nat jj)) with
  | Some (_, o) => o | None => repeat (-1) (n_out c) end.
Definition in_tensor (c : conv_code) (es : list trellis_entry) (ii jj : nat) : list Z :=
  match io_get es (uint2bin (mem_total c) (Z.of_nat ii)) (uint2bin (mem_total c) (Z.of_nat jj)) with
  | Some (i, _) => i | None => repeat (-1) (length (gen c)) end.
(** rx/decoding.py:310-324, one chunk.  [prev] holds, per state, the accumulated distance and the decoded
    bits after the previous chunk ([None] before the first one). *)
Definition viterbi_step (c : conv_code) (es : list trellis_entry) (prev : option (list (Z * list Z))) (chunk : list Z)
  : res (list (Z * list Z)) :=
  map_res (fun jj =>
    let col := map (fun ii => hdistZ chunk (out_tensor c es ii jj)) (seq 0 (2 ^ mem_total c)) in
    from <- argmin col ;;
    mn <- np_min col ;;
    match prev with
    | None => Ok (mn, in_tensor c es from jj)
    | Some pl => p <- np_get pl (Z.of_nat from) ;; Ok (mn + fst p, snd p ++ in_tensor c es from jj)
    end) (seq 0 (2 ^ mem_total c)).
Fixpoint viterbi_run (c : conv_code) (es : list trellis_entry) (prev : option (list (Z * list Z))) (chs : list (list Z))
  : res (option (list (Z * list Z))) :=
  match chs with
  | [] => Ok prev
  | ch :: chs' => p <- viterbi_step c es prev ch ;; viterbi_run c es (Some p) chs'
  end.
(** rx/decoding.py:303-336 for one block: decoded bits, last_state, error probability.  Without a full
    chunk [hamming_dist[:, -1]] raises IndexError. *)
Definition viterbi_block (c : conv_code) (es : list trellis_entry) (blk : list Z) : res (list Z * nat * Q) :=
  r <- viterbi_run c es None (chunks (n_out c) blk) ;;
  match r with
  | None => Raise IndexError
  | Some fin =>
    let dist := map fst fin in
    last <- argmin dist ;;
    dec <- np_get (map snd fin) (Z.of_nat last) ;;
    mn <- np_min dist ;;
    let count := length (filter (Z.eqb mn) dist) in
    Ok (dec, last, if (1 <? count)%nat then (1 # Pos.of_nat count)%Q else 0%Q)
  end.
(** rx/decoding.py:259-341 (error_prob=True; error_prob=False returns the first two components).
    Without a full block [last_state] is unbound. *)
Definition decoding_conv_viterbi (pattern : list Z) (c : conv_code) (tb_len : nat) : res (list Z * nat * list Q) :=
  _ <- check_valid_conv pattern c ;;
  match gen c with [] => Raise KeyError | _ =>
  if (n_out c =? 0)%nat || (tb_len =? 0)%nat then Raise ZeroDivisionError else
  es <- trellis_entries c ;;
  pattern_block <- trunc_reshape pattern tb_len ;;
  l <- map_res (viterbi_block c es) pattern_block ;;
  match rev l with
  | [] => Raise UnboundLocalError
  | (_, last, _) :: _ => Ok (concat (map (fun t => fst (fst t)) l), last, map snd l)
  end
  end.
