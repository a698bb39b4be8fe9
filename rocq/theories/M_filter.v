(** Model of CommDspy/misc/help_classes.py and CommDspy/rx/ffe_dfe_model.py. *)
From Verif Require Import Py PyQ M_aux M_slicer.
From Coq Require Import Qround.
Open Scope Z_scope.

(** [np.dot] of two 1-D arrays. *)
Definition np_dot (u v : list Qc) : res Qc :=
  if (length u =? length v)%nat then Ok (dotQ u v) else Raise ValueError.
(** A float stored in an array made by [np.zeros_like] of a float or an integer array; integers truncate
    towards zero (overflow is not modelled). *)
Inductive dtype := Float | Int.
Definition trunc (x : Qc) : Z := if Qcltb x 0%Qc then Qceiling (this x) else Qfloor (this x).
Definition store (dt : dtype) (y : Qc) : Qc := match dt with Float => y | Int => ofZ (trunc y) end.
(** Run a state machine over a chunk. *)
Fixpoint run_chunk {S} (process : S -> Qc -> res (Qc * S)) (dt : dtype) (s : S) (chunk : list Qc) : res (list Qc * S) :=
  match chunk with
  | [] => Ok ([], s)
  | x :: chunk' => r <- process s x ;; let '(y, s') := r in
                   q <- run_chunk process dt s' chunk' ;; Ok (store dt y :: fst q, snd q)
  end.
(** [deque.appendleft] with [maxlen = m]. *)
Definition appendleft (m : nat) (x : Qc) (q : list Qc) : list Qc := firstn m (x :: q).

(** CommDspy/misc/help_classes.py:5-42, class Filter.  An empty [a] makes [maxlen] negative: ValueError. *)
Record filter_state := mk_filter { f_b : list Qc ; f_a : list Qc ; f_zfir : list Qc ; f_ziir : list Qc }.
Definition filter_init (b a : list Qc) (z_fir z_iir : option (list Qc)) : res filter_state :=
  zf <- match z_fir with
        | None => Ok (repeat (ofZ 0) (length b))
        | Some z => if (length z =? length b)%nat then Ok z else Raise ValueError
        end ;;
  zi <- match z_iir with
        | None => match a with [] => Raise ValueError | _ => Ok (repeat (ofZ 0) (length a - 1)) end
        | Some z => if Z.of_nat (length z) =? Z.of_nat (length a) - 1 then Ok z else Raise ValueError
        end ;;
  Ok (mk_filter b a zf zi).
(** Lines 44-49.  [a[0] = 0] (inf or nan for numpy) is not modelled; the theorems assume [a[0] <> 0]. *)
Definition filter_process (s : filter_state) (x : Qc) : res (Qc * filter_state) :=
  let zf := appendleft (length (f_b s)) x (f_zfir s) in
  p <- np_dot (f_b s) zf ;;
  q <- np_dot (tl (f_a s)) (f_ziir s) ;;
  a0 <- np_get (f_a s) 0 ;;
  let y := ((p - q) / a0)%Qc in
  Ok (y, mk_filter (f_b s) (f_a s) zf (appendleft (length (f_a s) - 1) y (f_ziir s))).
(** Lines 51-55. *)
Definition filter_call (s : filter_state) (dt : dtype) (chunk : list Qc) : res (list Qc * filter_state) :=
  run_chunk filter_process dt s chunk.

(** CommDspy/misc/help_classes.py:57-117, class FilterTII. *)
Record tii_state := mk_tii { t_b : list Qc ; t_a : list Qc ; t_z : list Qc ; t_bvec : list Qc ; t_avec : list Qc }.
Definition tii_init (b a : list Qc) (z : option (list Qc)) : res tii_state :=
  let z_len := Z.max (Z.of_nat (length b)) (Z.of_nat (length a)) - 1 in
  z <- match z with
       | None => Ok (repeat (ofZ 0) (Z.to_nat z_len))
       | Some z => if Z.of_nat (length z) =? z_len then Ok z else Raise ValueError
       end ;;
  Ok (mk_tii b a z (tl b ++ repeat (ofZ 0) (Z.to_nat (Z.max (Z.of_nat (length z) - Z.of_nat (length b) + 1) 0)))
                   (tl a ++ repeat (ofZ 0) (Z.to_nat (Z.max (Z.of_nat (length z) - Z.of_nat (length a) + 1) 0)))).
(** Element-wise addition and subtraction of arrays of the same length. *)
Definition np_add (u v : list Qc) : res (list Qc) := if (length u =? length v)%nat then Ok (map2 Qcplus u v) else Raise ValueError.
Definition np_sub (u v : list Qc) : res (list Qc) := if (length u =? length v)%nat then Ok (map2 Qcminus u v) else Raise ValueError.
(** Lines 122-129 and 193-200: the output of the recursion and what is fed back ([y] itself, or the decision). *)
Definition tii_process_with (feedback : Qc -> res Qc) (s : tii_state) (x : Qc) : res (Qc * tii_state) :=
  b0 <- np_get (t_b s) 0 ;;
  z0 <- np_get (t_z s) 0 ;;
  a0 <- np_get (t_a s) 0 ;;
  let y := ((b0 * x + z0) / a0)%Qc in
  fb <- feedback y ;;
  let z_temp := tl (t_z s) ++ [ofZ 0] in
  u <- np_add (map (fun c => x * c)%Qc (t_bvec s)) z_temp ;;
  z' <- np_sub u (map (fun c => fb * c)%Qc (t_avec s)) ;;
  Ok (y, mk_tii (t_b s) (t_a s) z' (t_bvec s) (t_avec s)).
(** Lines 122-130. *)
Definition tii_process := tii_process_with Ok.
(** Lines 132-136. *)
Definition tii_call (s : tii_state) (dt : dtype) (chunk : list Qc) : res (list Qc * tii_state) := run_chunk tii_process dt s chunk.
(** One decision: [slicer(np.array([x]), levels)]. *)
Definition slice_one (levels : option (list Qc)) (x : Qc) : res Qc :=
  r <- slicer (Arr (vec [x])) levels ;; np_get (data r) 0.
(** CommDspy/misc/help_classes.py:139-200, class FfeDfeFilterTII ([b] is ffe, [a] is dfe). *)
Definition ffedfe_tii_process (levels : option (list Qc)) := tii_process_with (slice_one levels).
Definition ffedfe_tii_call (levels : option (list Qc)) (s : tii_state) (dt : dtype) (chunk : list Qc) : res (list Qc * tii_state) :=
  run_chunk (ffedfe_tii_process levels) dt s chunk.

(** [scipy.signal.convolve(u, v, mode='valid')] on 1-D arrays (exact arithmetic): the part of the full
    convolution where the shorter array is completely inside the longer one. *)
Definition conv_at (u v : list Qc) (n : nat) : Qc :=
  sumQ (map (fun i => if (i <=? n)%nat then nth i u (ofZ 0) * nth (n - i) v (ofZ 0) else ofZ 0)%Qc (seq 0 (length u))).
Definition convolve_valid (u v : list Qc) : list Qc :=
  match u, v with
  | [], _ => [] | _, [] => []
  | _, _ => let lo := Nat.min (length u) (length v) in let hi := Nat.max (length u) (length v) in
            map (fun k => conv_at u v (lo - 1 + k)) (seq 0 (hi - lo + 1))
  end.

(** CommDspy/rx/ffe_dfe_model.py:7-110.  The shape of the result depends on the arguments. *)
Inductive ffe_dfe_result :=
| OutSignal (slicer_in : list Qc)
| OutFfe (slicer_in zo_ffe : list Qc)
| OutDfe (slicer_in zo_dfe : list Qc)
| OutBoth (slicer_in zo_ffe zo_dfe : list Qc).
(** Lines 83-106: the loop over the rows of the buffer.  [n] is the length of the input, [sin] and [sout] are the
    values stored so far in slicer_in and slicer_out (the rest of slicer_out is still zero). *)
Fixpoint ffe_dfe_loop (ffe_taps dfe_taps : list Qc) (levels : option (list Qc)) (osr phase : Z) (n : nat)
    (rows : list (list Qc)) (ii : nat) (sin sout mem : list Qc) : res (list Qc * list Qc) :=
  match rows with
  | [] => Ok (sin, mem)
  | row :: rows' =>
    ffe <- np_dot row (rev ffe_taps) ;;
    dfe <- np_dot mem dfe_taps ;;
    if (n <=? ii)%nat then Raise IndexError else
    let x := (ffe - dfe)%Qc in
    d <- slice_one levels x ;;
    let sin := sin ++ [x] in
    let sout := sout ++ [d] in
    if osr =? 0 then Raise ZeroDivisionError else
    mem <- (if Z.of_nat ii mod osr =? (phase + osr / 2) mod osr then
              let idx := Z.of_nat ii - osr / 2 in
              if 0 <=? idx then
                v <- np_get (sout ++ repeat (ofZ 0) (n - length sout)) idx ;;
                Ok (if (1 <? length dfe_taps)%nat then v :: slice_to mem (-1) else v :: [])
              else Ok mem
            else Ok mem) ;;
    ffe_dfe_loop ffe_taps dfe_taps levels osr phase n rows' (S ii) sin sout mem
  end.
(** Lines 63-69.  On a wrong length [len(ffe_len)] is evaluated: TypeError (never the intended ValueError); for the
    DFE memory the error message itself formats an array with 'd': TypeError. *)
Definition ffe_memory (ffe_len : nat) (zi_ffe : option (list Qc)) : res (list Qc) :=
  match zi_ffe with
  | None => if (ffe_len =? 0)%nat then Raise ValueError else Ok (repeat (ofZ 0) (ffe_len - 1))
  | Some z => if (length z =? ffe_len)%nat then Ok (tl z) else Raise TypeError
  end.
Definition ffe_dfe (input_signal ffe_taps : list Qc) (dfe_taps levels : option (list Qc)) (osr phase : Z)
    (zi_ffe zi_dfe : option (list Qc)) : res ffe_dfe_result :=
  let ffe_len := length ffe_taps in
  match dfe_taps with
  | None =>
    if (ffe_len =? 1)%nat then Ok (OutSignal (map (fun x => x * nth 0 ffe_taps (ofZ 0))%Qc input_signal)) else
    zi <- ffe_memory ffe_len zi_ffe ;;
    Ok (OutFfe (convolve_valid ffe_taps (zi ++ input_signal))
               (slice_from input_signal (-1 * Z.of_nat ffe_len)))
  | Some dfe_taps =>
    mem <- match zi_dfe with
           | None => Ok (repeat (ofZ 0) (length dfe_taps))
           | Some z => if (length z =? length dfe_taps)%nat then Ok z else Raise TypeError
           end ;;
    zi <- ffe_memory ffe_len zi_ffe ;;
    rows <- buffer (ofZ 0) Qceqb (zi ++ input_signal) (Z.of_nat ffe_len) (Z.of_nat ffe_len - 1) 0 false ;;
    r <- ffe_dfe_loop ffe_taps dfe_taps levels osr phase (length input_signal) rows 0 [] [] mem ;;
    let '(slicer_in, mem) := r in
    if (ffe_len =? 1)%nat then Ok (OutDfe slicer_in mem)
    else last <- np_get rows (-1) ;; Ok (OutBoth slicer_in last mem)
  end.
