(** Model of CommDspy/psa.py:6-98 over the real numbers (no rounding), with the parts of scipy.signal.welch and
    scipy.signal.get_window it uses (documented algorithm).  Plotting (lines 88-96) has no effect on the result and is
    left out. *)
From Coq Require Import Reals String.
From Verif Require Import Py M_soft M_sim.
Import List.
Open Scope R_scope.

(** The signal: a flattened real or complex numpy array (line 44). *)
Inductive psa_signal := RealSig (x : list R) | CplxSig (x : list (R * R)).
Definition points (s : psa_signal) : list (R * R) := match s with RealSig x => map (fun v => (v, 0)) x | CplxSig x => x end.
Definition is_cplx (s : psa_signal) : bool := match s with RealSig _ => false | CplxSig _ => true end.
Definition cscale (c : R) (x : list (R * R)) : list (R * R) := map (fun v => (c * fst v, c * snd v)) x.
(** np.ceil of a real as an integer. *)
Definition Rceil (x : R) : Z := (- Int_part (- x))%Z.

(** scipy.signal.detrend(type='constant') on one segment. *)
Definition cmean (x : list (R * R)) : R * R := (sumR (map fst x) / INR (length x), sumR (map snd x) / INR (length x)).
Definition detrend (x : list (R * R)) : list (R * R) := let m := cmean x in map (fun v => (fst v - fst m, snd v - snd m)) x.
(** Window times segment. *)
Definition windowed (win : list R) (x : list (R * R)) : list (R * R) := map2 (fun w v => (w * fst v, w * snd v)) win x.
(** Entry [k] of the [n]-point DFT of the zero-padded list [x], and its squared absolute value. *)
Definition dft_re (n : nat) (x : list (R * R)) (k : nat) : R :=
  sumR (map (fun i => fst (nth i x (0, 0)) * cos (2 * PI * INR k * INR i / INR n) + snd (nth i x (0, 0)) * sin (2 * PI * INR k * INR i / INR n)) (seq 0 (length x))).
Definition dft_im (n : nat) (x : list (R * R)) (k : nat) : R :=
  sumR (map (fun i => snd (nth i x (0, 0)) * cos (2 * PI * INR k * INR i / INR n) - fst (nth i x (0, 0)) * sin (2 * PI * INR k * INR i / INR n)) (seq 0 (length x))).
Definition dft_power (n : nat) (x : list (R * R)) (k : nat) : R := dft_re n x k * dft_re n x k + dft_im n x k * dft_im n x k.
(** The segments: [nper] samples every [step]. *)
Definition segments (x : list (R * R)) (nper step nseg : nat) : list (list (R * R)) :=
  map (fun j => firstn nper (skipn (j * step) x)) (seq 0 nseg).
(** Bins: all [nfft] for complex signals, the first nfft/2+1 for real ones; the latter doubled except at zero and, for an
    even [nfft], at the last bin. *)
Definition bins (cplx : bool) (nfft : nat) : nat := if cplx then nfft else (nfft / 2 + 1)%nat.
Definition side_factor (cplx : bool) (nfft k : nat) : R :=
  if cplx then 1 else if (k =? 0)%nat then 1 else if (Nat.even nfft && (k =? nfft / 2)%nat)%bool then 1 else 2.
Definition bin_freq (cplx : bool) (fs : R) (nfft k : nat) : R :=
  if (negb cplx || (k <? (nfft - 1) / 2 + 1)%nat)%bool then INR k * fs / INR nfft else (INR k - INR nfft) * fs / INR nfft.
(** scipy.signal.welch(x, fs, window=win, noverlap, nfft, scaling='spectrum').  A window whose sum is zero (division by
    zero) is not modelled. *)
Definition welch (cplx : bool) (x : list (R * R)) (fs : R) (win : list R) (noverlap : Z) (nfft : nat) : res (list R * list R) :=
  let nper := length win in
  if (length x =? 0)%nat then Ok ([], []) else
  if (length x <? nper)%nat then Raise ValueError else
  if (nfft <? nper)%nat then Raise ValueError else
  if (Z.of_nat nper <=? noverlap)%Z then Raise ValueError else
  let step := (Z.of_nat nper - noverlap)%Z in
  let nseg := Z.to_nat ((Z.of_nat (length x) - noverlap) / step) in
  let segs := map (fun s => windowed win (detrend s)) (segments x nper (Z.to_nat step) nseg) in
  let scale := 1 / (sumR win * sumR win) in
  Ok (map (bin_freq cplx fs nfft) (seq 0 (bins cplx nfft)),
      map (fun k => sumR (map (fun s => side_factor cplx nfft k * (scale * dft_power nfft s k)) segs) / INR nseg) (seq 0 (bins cplx nfft))).

(** scipy.signal.get_window('blackmanharris', n): periodic. *)
Definition blackmanharris (n : nat) : list R :=
  if (n =? 1)%nat then [1] else
  map (fun i => let f := - PI + 2 * PI * INR i / INR n in 0.35875 + 0.48829 * cos f + 0.14128 * cos (2 * f) + 0.01168 * cos (3 * f)) (seq 0 n).

Record psa_par := mk_psa {
  ps_fs : R ; ps_rbw : option R ; ps_mode : string ; ps_obw : option R ; ps_r : R ; ps_osr : R ; ps_overlap : R ; ps_fullscale : R ; ps_sb : string }.
(** Lines 45-49 *)
Definition eff_mode (p : psa_par) : string := match ps_obw p with Some _ => "dBc"%string | None => ps_mode p end.
Definition eff_rbw (p : psa_par) (n : nat) : R :=
  match ps_rbw p with Some b => b | None => Rmax (ps_fs p / 1000) (2 * ps_fs p / INR n / 10) end.
Definition all_real (x : list (R * R)) : bool := forallb (fun v => if Req_EM_T (snd v) 0 then true else false) x.
Definition eff_fs (p : psa_par) (x : list (R * R)) : R := if (all_real x && (ps_sb p =? "DSB")%string)%bool then ps_fs p / 2 else ps_fs p.
(** Lines 54-74; [None]: the root mean square of the signal is zero. *)
Definition norm_factor (p : psa_par) (x : list (R * R)) : option (res R) :=
  let rbw := eff_rbw p (length x) in
  let fs := eff_fs p x in
  let r := ps_r p in
  let mode := eff_mode p in
  if (mode =? "dBm")%string then Some (Ok (sqrt (1000 / r) * sqrt (rbw / fs))) else
  if (mode =? "dBm/Hz")%string then Some (Ok (sqrt (1000 / r / fs))) else
  if (mode =? "dBuv")%string then Some (Ok (sqrt (rbw / fs) * 1000000)) else
  if (mode =? "dBuv/sqrt(Hz)")%string then Some (Ok (sqrt (1 / fs) * 1000000)) else
  if (mode =? "dBc")%string then
    let vrms := sqrt (sumR (map (fun v => fst v * fst v + snd v * snd v) x) / INR (length x)) in
    let obw := match ps_obw p with Some b => b | None => rbw end in
    if Req_EM_T vrms 0 then None else Some (Ok (sqrt (obw / fs) / vrms)) else
  if (mode =? "dBFs")%string then Some (Ok (sqrt (match ps_obw p with Some b => b | None => rbw end / fs) / ps_fullscale p)) else
  if (mode =? "dB")%string then Some (Ok 1) else
  Some (Raise ValueError).
(** Line 78; in exact arithmetic, int() cuts off. *)
Definition window_n (p : psa_par) (n : nat) : nat := Z.to_nat (19 * Rceil (ps_fs p / eff_rbw p n) / 10).
(** Lines 83-84 *)
Definition psa_nfft (osr : R) (w : nat) : nat := let e := Rceil (ln (INR w * osr) / ln 2) in if (e <? 0)%Z then 0%nat else Z.to_nat (2 ^ e).
Definition psa_overlap (overlap : R) (w : nat) : Z := Int_part (INR w * overlap).
(** Parameters which are not positive are outside the model. *)
Definition positive (x : R) : bool := if Rlt_dec 0 x then true else false.
Definition positive_opt (x : option R) : bool := match x with Some v => positive v | None => true end.
Definition psa_domain (p : psa_par) : bool :=
  positive (ps_fs p) && positive_opt (ps_rbw p) && positive_opt (ps_obw p) && positive (ps_r p) && positive (ps_osr p) && positive (ps_fullscale p).
(** Lines 41-98; [get_window] is scipy's get_window(window, .).  Outside the model: parameters which are not positive, an
    empty signal with a given rbw, and a zero signal with mode dBc (nan). *)
Definition psa (get_window : nat -> list R) (p : psa_par) (s : psa_signal) : outcome (list R * list R) :=
  let x := points s in
  if negb (psa_domain p) then Unmodelled else
  if (length x =? 0)%nat then match ps_rbw p with None => Done (Raise ZeroDivisionError) | Some _ => Unmodelled end else
  match norm_factor p x with
  | None => Unmodelled
  | Some (Raise e) => Done (Raise e)
  | Some (Ok c) =>
    let w := window_n p (length x) in
    Done (welch (is_cplx s) (cscale c x) (ps_fs p) (get_window w) (psa_overlap (ps_overlap p) w) (psa_nfft (ps_osr p) w))
  end.
