(** Model of convolutional coding: CommDspy/tx/coding.py:187-327, CommDspy/misc/help_functions.py:12-32 and
    the trellis of CommDspy/misc/ml_decoding.py:34-159, in exact integer arithmetic (see M_convfloat.v for the
    double precision recursion).

    The generator dictionary has the keys 0..n_in-1 in this order and is a list of 2-D arrays (lists of rows);
    [feedback] is a dictionary over the same keys, given as a list of optional polynomials. *)
From Verif Require Import Py M_aux M_coding M_linear.

Record conv_code := mk_code {
  gen : list (list (list Z)) ;
  fdb : option (list (option (list Z))) ;
  ufb : option (list (list Z)) }.
(** [feedback.get(ii)] ; [ii in feedback.keys()] *)
Definition fb_get (c : conv_code) (ii : nat) : option (list Z) :=
  match fdb c with Some l => nth ii l None | None => None end.
Definition get2 (m : list (list Z)) (ii jj : nat) : Z := nth jj (nth ii m []) 0.
(** coding.py:265-266 / ml_decoding.py:105: zeros when not given. *)
Definition uf_get (c : conv_code) (ii jj : nat) : Z :=
  match ufb c with Some m => get2 m ii jj | None => 0 end.
Definition n_out (c : conv_code) : nat := length (nth 0 (gen c) []).

(** Run checks in sequence; the first exception wins. *)
Fixpoint all_ok (l : list (res unit)) : res unit :=
  match l with [] => Ok tt | r :: l' => _ <- r ;; all_ok l' end.
(** misc/help_functions.py:12-32.  [G[0]] on an empty dictionary is not reached in the loop. *)
Definition check_valid_conv (pattern : list Z) (c : conv_code) : res unit :=
  _ <- check_binary pattern ;;
  all_ok (map (fun ii =>
    let Gii := nth ii (gen c) [] in
    _ <- check_binary (concat Gii) ;;
    match fdb c with
    | None => Ok tt
    | Some fl =>
      match ufb c with
      | None => Raise ValueError
      | Some uf =>
        if negb (length uf =? length (gen c))%nat || negb (length (nth 0 uf []) =? n_out c)%nat then Raise ValueError else
        _ <- all_ok (map (fun f => match f with Some p => check_binary p | None => Ok tt end) fl) ;;
        all_ok (map (fun jj =>
          let row := nth jj Gii [] in
          if (get2 uf ii jj =? 1) && (match fb_get c ii with None => true | Some _ => false end) then Raise ValueError
          else if (get2 uf ii jj =? 0) && (match fb_get c ii with None => false | Some _ => true end)
                  && (1 <? length row)%nat && (0 <? sumZ (tl row)) then Raise ValueError
          else Ok tt) (seq 0 (length Gii)))
      end
    end) (seq 0 (length (gen c)))).

(** scipy.signal.lfilter(b, a, x) with zero initial state and a[0] = 1:
    y[n] = sum_k b[k] x[n-k] - sum_{k>=1} a[k] y[n-k].  [xs], [ys] are the past inputs and outputs, latest first. *)
Fixpoint lf_run (b a1 : list Z) (xs ys x : list Z) : list Z :=
  match x with
  | [] => []
  | v :: x' => let y := dotZ b (v :: xs) - dotZ a1 ys in y :: lf_run b a1 (v :: xs) (y :: ys) x'
  end.
(** a[0] = 0 raises ValueError in scipy; other values of a[0] than 0 and 1 are not binary and not modelled. *)
Definition lfilterZ (b a x : list Z) : res (list Z) :=
  match a with
  | a0 :: a1 => if a0 =? 1 then Ok (lf_run b a1 [] [] x) else Raise ValueError
  | [] => Raise ValueError
  end.
(** Denominator 1.0: scipy convolves, which raises ValueError on an empty input. *)
Definition lfilter_fir (b x : list Z) : res (list Z) :=
  match x with [] => Raise ValueError | _ => Ok (lf_run b [] [] [] x) end.

(** tx/coding.py:284-319, the contribution of input [ii] to output [jj]. *)
Definition conv_contrib (c : conv_code) (in_pattern : list Z) (ii jj : nat) : res (list Z) :=
  let row := nth jj (nth ii (gen c) []) [] in
  let iir := fb_get c ii in
  if forallb (Z.eqb 0) row then Ok (repeat 0 (length in_pattern))
  else if (match iir with None => false | Some _ => true end) && (1 <? length row)%nat && (0 <? sumZ (tl row)) && (uf_get c ii jj =? 0)
  then Raise ValueError
  else if (1 <? length row)%nat && (nth 0 row 0 =? 1) && (sumZ (tl row) =? 0) && (uf_get c ii jj =? 0) then Ok in_pattern
  else match iir with None => lfilter_fir row in_pattern | Some f => lfilterZ row f in_pattern end.
Definition addv (u v : list Z) : list Z := map2 Z.add u v.
(** tx/coding.py:187-327; [zi] does not occur in the body.  An empty dictionary makes [G[0]] raise KeyError. *)
Definition coding_conv (pattern : list Z) (c : conv_code) (zi : option (list (list Z))) : res (list Z) :=
  _ <- check_valid_conv pattern c ;;
  match gen c with
  | [] => Raise KeyError
  | _ =>
    let n_in := length (gen c) in
    let pattern_padded := (if negb (length pattern mod n_in =? 0)%nat
                           then pattern ++ repeat 0 (n_in - (length pattern mod n_in)) else pattern) in
    rows <- reshape_rows n_in pattern_padded ;;
    let input ii := map (fun r => nth ii r 0) rows in
    outs <- map_res (fun jj =>
      contribs <- map_res (fun ii => conv_contrib c (input ii) ii jj) (seq 0 n_in) ;;
      Ok (mod2 (fold_left addv contribs (repeat 0 (length rows))))) (seq 0 (n_out c)) ;;
    Ok (concat (map (fun t => map (fun o => nth t o 0) outs) (seq 0 (length rows))))
  end.

(** *** Trellis, misc/ml_decoding.py:34-159 *)
(** lines 62-68 *)
Definition memory (c : conv_code) : list nat := map (fun Gi => (length (nth 0 Gi []) - 1)%nat) (gen c).
Definition mem_start (c : conv_code) (kk : nat) : nat := fold_right Nat.add 0%nat (firstn kk (memory c)).
Definition mem_total (c : conv_code) : nat := fold_right Nat.add 0%nat (memory c).
(** line 117 *)
Definition mem_slice (c : conv_code) (state : list Z) (kk : nat) : list Z :=
  firstn (nth kk (memory c) 0%nat) (skipn (mem_start c kk) state).
(** lines 130-135: new register content of input [kk]; dot raises ValueError on a length mismatch. *)
Definition mem_new (c : conv_code) (state : list Z) (kk : nat) (in_k : Z) : res (list Z) :=
  let m := mem_slice c state kk in
  match fb_get c kk with
  | Some f => if (length m =? length (tl f))%nat then Ok ((in_k + dotZ m (tl f)) mod 2 :: m) else Raise ValueError
  | None => Ok (in_k :: m)
  end.
(** lines 141-151: contribution of input [kk] to output [jj]. *)
Definition trellis_out (c : conv_code) (in_k : Z) (memory_k : list Z) (kk jj : nat) : Z :=
  let row := nth jj (nth kk (gen c) []) [] in
  match fdb c with
  | None => dotZ row memory_k mod 2
  | Some _ => if (length row =? 1)%nat || (uf_get c kk jj =? 0) then in_k * nth 0 row 0
              else dotZ row memory_k mod 2
  end.
(** lines 121-155 for one (input, state). *)
Definition trellis_step (c : conv_code) (state input : list Z) : res (list Z * list Z) :=
  mems <- map_res (fun kk => mem_new c state kk (nth kk input 0)) (seq 0 (length (gen c))) ;;
  let c_vec := map (fun jj => fold_left Z.lxor
     (map (fun kk => trellis_out c (nth kk input 0) (nth kk mems []) kk jj) (seq 0 (length (gen c)))) 0) (seq 0 (n_out c)) in
  let next_state := concat (map (fun m => removelast m) mems) in
  Ok (c_vec, next_state).

(** The two dictionaries, as the list of assignments in program order (lines 111-157); dictionary lookup
    returns the value of the latest assignment to the key. *)
Definition trellis_entry := (list Z * list Z * list Z * list Z)%type. (* state, input, output, next state *)
Definition trellis_entries (c : conv_code) : res (list trellis_entry) :=
  l <- map_res (fun st => map_res (fun inp => r <- trellis_step c st inp ;; Ok (st, inp, fst r, snd r))
        (get_bin_perm (length (gen c)))) (get_bin_perm (mem_total c)) ;;
  Ok (concat l).
Definition eqlb (u v : list Z) : bool := if list_eq_dec Z.eq_dec u v then true else false.
(** [trellis[(input, state)]] *)
Definition trellis_get (es : list trellis_entry) (input state : list Z) : res (list Z * list Z) :=
  match find (fun e => let '(s, i, _, _) := e in eqlb i input && eqlb s state) (rev es) with
  | Some (_, _, o, ns) => Ok (o, ns)
  | None => Raise KeyError
  end.
(** [io_dict.get((state, next_state))]: (input, output) *)
Definition io_get (es : list trellis_entry) (state next : list Z) : option (list Z * list Z) :=
  match find (fun e => let '(s, _, _, ns) := e in eqlb s state && eqlb ns next) (rev es) with
  | Some (_, i, o, _) => Some (i, o)
  | None => None
  end.
(** Walk the trellis dictionary over a list of input chunks. *)
Fixpoint trellis_walk (es : list trellis_entry) (state : list Z) (chunks : list (list Z)) : res (list Z * list Z) :=
  match chunks with
  | [] => Ok ([], state)
  | ch :: cs => r <- trellis_get es ch state ;; rest <- trellis_walk es (snd r) cs ;; Ok (fst r ++ fst rest, snd rest)
  end.
