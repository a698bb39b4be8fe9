(** Model of the line codes of CommDspy/tx/coding.py:7-155 and CommDspy/rx/decoding.py:9-143.
    Symbol arrays hold exact integers (python ints or floats below 2^53). *)
From Verif Require Import Py M_aux.
From Coq Require Import QArith.
Open Scope Z_scope.

(** [np.cumsum] / [lfilter([1],[1,-1],x)]: running sum, starting from [acc]. *)
Fixpoint cumsum (acc : Z) (l : list Z) : list Z :=
  match l with [] => [] | x :: l' => (acc + x) :: cumsum (acc + x) l' end.
(** [lfilter([1,-1],[1],x)] along one row: x[n] - x[n-1], x[-1] = [prev] = 0. *)
Fixpoint diff_from (prev : Z) (l : list Z) : list Z :=
  match l with [] => [] | x :: l' => (x - prev) :: diff_from x l' end.
(** [np.diff(l)]. *)
Definition np_diff (l : list Z) : list Z := match l with [] => [] | x :: l' => diff_from x l' end.
(** Replace the last dimension of a shape. *)
Definition set_last_dim (sh : list nat) (d : nat) : list nat := removelast sh ++ [d].
Definition last_dim (sh : list nat) : nat := last sh 0%nat.

(** CommDspy/tx/coding.py:7-29 *)
Definition coding_gray (c : constellation) (p : nda Z) : res (nda Z) :=
  let level_num := length (get_levels c) in
  if (1 <? ceil_log2 level_num)%nat then
    d <- np_take (get_gray_level_vec level_num) (data p) ;; Ok (mk_nda (shape p) d)
  else Ok p.
(** CommDspy/rx/decoding.py:9-32 *)
Definition decoding_gray (c : constellation) (p : nda Z) : res (nda Z) :=
  let level_num := length (get_levels c) in
  let levels := if (1 <? ceil_log2 level_num)%nat then get_gray_level_vec level_num else [0; 1] in
  d <- np_take levels (data p) ;; Ok (mk_nda (shape p) d).

(** CommDspy/tx/coding.py:31-46 (the float filter is exact on integers). *)
Definition coding_differential (c : constellation) (p : nda Z) : nda Z :=
  let m := Z.of_nat (length (get_levels c)) in
  mk_nda (shape p) (map (fun v => v mod m) (cumsum 0 (data p))).
(** CommDspy/rx/decoding.py:34-47: lfilter works along the last axis, i.e. row by row; an empty last axis
    makes the convolution inside lfilter raise ValueError.  Arrays have at least one dimension. *)
Definition decoding_differential (c : constellation) (p : nda Z) : res (nda Z) :=
  let m := Z.of_nat (length (get_levels c)) in
  let w := last_dim (shape p) in
  if (w =? 0)%nat then Raise ValueError
  else Ok (mk_nda (shape p) (map (fun v => v mod m) (concat (map (diff_from 0) (chunks w (data p)))))).

(** CommDspy/tx/coding.py:48-75.  0-dimensional arrays ([shape[-1]] raises IndexError) included. *)
Definition coding_manchester (p : nda Z) : res (nda Z) :=
  _ <- check_binary (data p) ;;
  match shape p with
  | [] => Raise IndexError
  | _ => cells <- np_take [[0; 1]; [1; 0]] (data p) ;;
         reshape (concat cells) (set_last_dim (shape p) (2 * last_dim (shape p)))
  end.
(** CommDspy/rx/decoding.py:49-82.  The result is (1 + a - b) / 2 per pair (a, b): 0, 1 or 0.5 on bits. *)
Definition manch_value (pair : list Z) : Q := Qred (1 - (nth 1 pair 0 - nth 0 pair 0) # 2).
Definition decoding_manchester (p : nda Z) : res (nda Q) :=
  _ <- check_binary (data p) ;;
  match shape p with
  | [] => Raise IndexError
  | _ => pairs <- reshape_rows 2 (data p) ;;
         reshape (map manch_value pairs) (set_last_dim (shape p) (last_dim (shape p) / 2))
  end.

(** CommDspy/tx/coding.py:77-97 *)
Definition coding_bipolar (p : nda Z) : res (nda Z) :=
  _ <- check_binary (data p) ;;
  let sign_vec := data (coding_differential OOK p) in
  Ok (mk_nda (shape p) (map2 (fun b s => 1 + b * (-1) ^ s) (data p) sign_vec)).
(** CommDspy/rx/decoding.py:98-99, error_detection=False *)
Definition decoding_bipolar (p : nda Z) : nda Z := mk_nda (shape p) (map (fun v => Z.abs (v - 1)) (data p)).
(** [l[i] = x] *)
Definition set_nth {A} (i : nat) (x : A) (l : list A) : list A := firstn i l ++ match skipn i l with [] => [] | _ :: r => x :: r end.
(** CommDspy/rx/decoding.py:104-114 on a 1-D pattern, error_detection=True.  State of the loop (lines
    109-113): the decoded values and the running sign. *)
Definition bipolar_step (locs : list nat) (st : list Q * Z) (im : nat * Z) : list Q * Z :=
  let '(dec, rs) := st in
  let '(ii, mark) := im in
  if mark =? 0 then
    let v := Qred (Z.sgn rs # 2) in
    (set_nth (nth (ii - 1) locs 0%nat) v (set_nth (nth ii locs 0%nat) v dec), rs)
  else (dec, Z.sgn mark).
Definition decoding_bipolar_detect (p : list Z) : list Q :=
  let flat := map (fun v => v - 1) p in
  let dec := map (fun v => inject_Z (Z.abs (v - 1))) p in
  let locs := filter (fun i => negb (nth i flat 0 =? 0)) (seq 0 (length p)) in
  let mark_change := 1 :: np_diff (map (fun i => nth i flat 0) locs) in
  fst (fold_left (bipolar_step locs) (combine (seq 0 (length mark_change)) mark_change) (dec, 1)).

(** CommDspy/tx/coding.py:99-124 *)
Definition coding_mlt3 (p : nda Z) : res (nda Z) :=
  _ <- check_binary (data p) ;;
  let enc := coding_differential PAM4 p in
  Ok (mk_nda (shape enc) (map (fun v => if v =? 3 then 1 else v) (data enc))).
(** CommDspy/rx/decoding.py:116-125 on a 1-D pattern. *)
Definition decoding_mlt3 (p : list Z) : res (list Z) :=
  match p with
  | [] => Raise IndexError
  | x :: _ => Ok ((if x =? 1 then 1 else 0) :: map Z.abs (np_diff p))
  end.

(** CommDspy/tx/coding.py:126-155.  [coding_list[idx, bit]] with the inverted bit; bits outside -2..1
    would raise IndexError. *)
Definition dm_table (idx : Z) : list (list Z) := if idx =? 0 then [[0; 0]; [0; 1]] else [[1; 1]; [1; 0]].
Definition coding_differential_manchester (p : nda Z) : res (nda Z) :=
  _ <- check_binary (data p) ;;
  match shape p with
  | [] => Raise IndexError
  | _ =>
    let flat := map (fun b => 1 - b) (data p) in
    let idx_shift := cumsum 0 (0 :: removelast flat) in
    let idx_vec := map2 (fun i s => (Z.of_nat i + s) mod 2) (seq 0 (length flat)) idx_shift in
    cells <- map_res (fun ib => np_get (dm_table (fst ib)) (snd ib)) (combine idx_vec flat) ;;
    reshape (concat cells) (set_last_dim (shape p) (2 * last_dim (shape p)))
  end.
(** CommDspy/rx/decoding.py:127-143 *)
Definition decoding_differential_manchester (p : nda Z) : res (nda Z) :=
  _ <- check_binary (data p) ;;
  match shape p with
  | [] => Raise IndexError
  | _ => pairs <- reshape_rows 2 (data p) ;;
         reshape (map (fun pr => 1 - Z.abs (nth 1 pr 0 - nth 0 pr 0)) pairs)
                 (set_last_dim (shape p) (last_dim (shape p) / 2))
  end.
