(** Model of CommDspy/channel/pulse_shaping.py and CommDspy/channel/additive_noise_functions.py over the real numbers
    (no rounding), and of the part of scipy.signal.lfilter they use. *)
From Coq Require Import Reals String.
From Verif Require Import Py M_aux M_delay M_soft.
Open Scope R_scope.

(** [np.convolve(b, x)] (full). *)
Definition conv_at (b x : list R) (n : nat) : R := sumR (map (fun k => nth k b 0 * nth (n - k) x 0) (seq 0 (S n))).
Definition np_convolve (b x : list R) : list R := map (conv_at b x) (seq 0 (length b + length x - 1)).
(** The direct form II transposed recursion of scipy.signal.lfilter on normalised coefficients. *)
Fixpoint tdf2 (b a z xs : list R) : list R * list R :=
  match xs with
  | [] => ([], z)
  | x :: xs => let y := nth 0 z 0 + nth 0 b 0 * x in
               let z := map (fun k => nth (S k) z 0 + x * nth (S k) b 0 - y * nth (S k) a 0) (seq 0 (length z)) in
               let r := tdf2 b a z xs in (y :: fst r, snd r)
  end.
(** scipy.signal.lfilter(b, a, x, zi=zi) for real 1-D arrays.  One denominator coefficient: the memory must have length
    len(b)-1, the full convolution (ValueError on an empty signal) plus the memory is cut in output and new memory; more
    coefficients: the recursion.  Not modelled: a[0] = 0 with one coefficient (inf/nan), empty coefficient arrays (here
    ValueError). *)
Definition lfilter (b a x zi : list R) : res (list R * list R) :=
  match a with
  | [] => Raise ValueError
  | a0 :: a' =>
    let b' := map (fun c => c / a0) b in
    if (length b =? 0)%nat then Raise ValueError else
    if (length a' =? 0)%nat then
      if negb (length zi =? length b - 1)%nat then Raise ValueError else
      if (length x =? 0)%nat then Raise ValueError else
      let out_full := map2 Rplus (np_convolve b' x) (zi ++ repeat 0 (length x)) in
      Ok (firstn (length x) out_full, skipn (length x) out_full)
    else
      if Req_EM_T a0 0 then Raise ValueError else
      if negb (length zi =? Nat.max (length a) (length b) - 1)%nat then Raise ValueError else
      Ok (tdf2 b' (map (fun c => c / a0) a) zi x)
  end.

(** Lines 129-142 (pulse_shaping.py). *)
Definition time_vec_pulse (osr span : Z) : list R :=
  let time_len := (osr * 2 * span)%Z in
  map (fun k => IZR k / IZR osr) (map (fun k => (-1 * (time_len / 2) + Z.of_nat k)%Z) (seq 0 (Z.to_nat (time_len / 2 - -1 * (time_len / 2))))).
Definition time_or (osr span : Z) (t : option (list R)) : list R := match t with Some t => t | None => time_vec_pulse osr span end.
(** Lines 58-69, one sample and the pulse. *)
Definition rect_at (t : R) : R := if Rlt_dec t 0.5 then if Rle_dec (-0.5) t then 1 else 0 else 0.
Definition rect_pulse (osr span : Z) (t : option (list R)) : list R := map rect_at (time_or osr span t).
(** Lines 71-81; [sinc] is np.sinc. *)
Definition sinc_pulse (osr span : Z) (t : option (list R)) : list R := map sinc (time_or osr span t).
(** Lines 83-103; [1/(2*beta)] is evaluated always, for a Python number it raises ZeroDivisionError. *)
Definition rcos_at (beta t : R) : R :=
  if Req_EM_T (Rabs (2 * beta * t)) 1 then PI / 4 * sinc (1 / (2 * beta))
  else sinc t * cos (PI * beta * t) / (1 - (2 * beta * t) ^ 2).
Definition rcos_pulse (osr span : Z) (beta : R) (t : option (list R)) : res (list R) :=
  if Req_EM_T beta 0 then Raise ZeroDivisionError else Ok (map (rcos_at beta) (time_or osr span t)).
(** Lines 105-127; [close0 x] is [np.isclose(x, 0)] (absolute tolerance 1e-8).  For negative [beta] line 126 can divide
    by zero, which is not modelled. *)
Definition close0 (x : R) : bool := if Rle_dec (Rabs x) (/ 100000000) then true else false.
Definition rrc_zero (beta : R) : R := 1 + beta * (4 / PI - 1).
Definition rrc_edge (beta : R) : R := beta / sqrt 2 * ((1 + 2 / PI) * sin (PI / (4 * beta)) + (1 - 2 / PI) * cos (PI / (4 * beta))).
Definition rrc_else (beta t : R) : R :=
  4 * beta / PI * (cos ((1 + beta) * PI * t) + sin ((1 - beta) * PI * t) / (4 * beta * t)) / (1 - (4 * beta * t) ^ 2).
Definition rrc_at (beta t : R) : R :=
  if close0 (Rabs t - 1 / (4 * beta)) then rrc_edge beta else if close0 t then rrc_zero beta else rrc_else beta t.
Definition rrc_pulse (osr span : Z) (beta : R) (t : option (list R)) : res (list R) :=
  if Req_EM_T beta 0 then Raise ZeroDivisionError else Ok (map (rrc_at beta) (time_or osr span t)).
(** Lines 144-156. *)
Definition get_pulse (method : string) (osr span : Z) (beta : R) (t : option (list R)) : res (list R) :=
  if (method =? "rect")%string then Ok (rect_pulse osr span t)
  else if (method =? "sinc")%string then Ok (sinc_pulse osr span t)
  else if (method =? "rcos")%string then rcos_pulse osr span beta t
  else if (method =? "rrc")%string then rrc_pulse osr span beta t
  else if (method =? "imp")%string then Ok [1]
  else Raise ValueError.
(** Lines 6-41, without random jitter (rj_sigma close to 0); lines 42-56 are in M_jitter.v. *)
Definition pulse_shape (signal : list R) (osr span : Z) (pulse : string) (beta : R) (zi : option (list R)) : res (list R * list R) :=
  sig_ups <- upsample 0 signal osr ;;
  pulse_vec <- get_pulse pulse osr span beta None ;;
  let m := (osr * span * 2 - 1)%Z in
  zi <- match zi with
        | None => if (m <? 0)%Z then Raise ValueError else Ok (repeat 0 (Z.to_nat m))
        | Some z => if (Z.of_nat (length z) =? m)%Z then Ok z else Raise ValueError
        end ;;
  lfilter pulse_vec [1] sig_ups zi.

(** additive_noise_functions.py lines 6-33.  [normal] are the standard normal draws behind np.random.normal(0, std);
    [None] is nan (the variance of a single sample with ddof=1; an empty signal gives an empty result). *)
Definition meanR (l : list R) : R := sumR l / INR (length l).
Definition var1 (l : list R) : R := sumR (map (fun x => (x - meanR l) ^ 2) l) / (INR (length l) - 1).
Definition sig_power_hat (l : list R) : R := var1 l + meanR l ^ 2.
Definition noise_std (l : list R) (snr : R) : R := sqrt (sig_power_hat l / Rpower 10 (snr / 10)).
Definition awgn (signal : list R) (snr : R) (normal : nat -> R) : list num :=
  map (fun k => if (length signal =? 1)%nat then None else Some (nth k signal 0 + (0 + noise_std signal snr * normal k))) (seq 0 (length signal)).
(** Lines 35-73.  A denominator which is neither list nor array (a number, but also a tuple) counts as length one. *)
Inductive coef := AList (l : list R) | ATuple (l : list R) | ANumber (x : R).
Definition coef_list (a : coef) : list R := match a with AList l | ATuple l => l | ANumber x => [x] end.
Definition awgn_channel (signal b : list R) (a : coef) (snr : option R) (zi : option (list R)) (normal : nat -> R) : res (list num * list R) :=
  zi <- match zi with
        | Some z => Ok z
        | None => let la := match a with AList l => length l | _ => 1%nat end in
                  if (Nat.max la (length b) =? 0)%nat then Raise ValueError else Ok (repeat 0 (Nat.max la (length b) - 1))
        end ;;
  r <- lfilter b (coef_list a) signal zi ;;
  Ok (match snr with Some snr => awgn (fst r) snr normal | None => map Some (fst r) end, snd r).
