(** Vocabulary for C61: supported modes, calibration, energy, tones. *)
From Coq Require Import Reals String.
From Verif Require Import Py M_sim M_psa S_channel.
Import List.
Open Scope R_scope.

Definition supported : list string := ["dBm"; "dBm/Hz"; "dBuv"; "dBuv/sqrt(Hz)"; "dBc"; "dBFs"; "dB"]%string.
(** Mean of the squared absolute values. *)
Definition mean_power (x : list (R * R)) : R :=
  sum_upto (fun k => fst (nth k x (0, 0)) * fst (nth k x (0, 0)) + snd (nth k x (0, 0)) * snd (nth k x (0, 0))) (length x) / INR (length x).
(** Calibration of a mode relative to mode dB: resolution bandwidth [rbw], bandwidth [fs] of the noise, load [r], full scale
    [full], power [pw] of the signal. *)
Definition calibration (mode : string) (rbw fs r full pw : R) : R :=
  if (mode =? "dBm")%string then 1000 * rbw / (r * fs) else
  if (mode =? "dBm/Hz")%string then 1000 / (r * fs) else
  if (mode =? "dBuv")%string then 1000000000000 * rbw / fs else
  if (mode =? "dBuv/sqrt(Hz)")%string then 1000000000000 / fs else
  if (mode =? "dBc")%string then rbw / (fs * pw) else
  if (mode =? "dBFs")%string then rbw / (fs * (full * full)) else 1.
(** Parameters in their natural range. *)
Definition sensible (p : psa_par) : Prop :=
  0 < ps_fs p /\ (forall b, ps_rbw p = Some b -> 0 < b) /\ (forall b, ps_obw p = Some b -> 0 < b) /\ 0 < ps_r p /\ 0 < ps_osr p /\ 0 < ps_fullscale p.
(** The same parameters with another mode, and with another side band mode. *)
Definition with_mode (m : string) (p : psa_par) : psa_par :=
  mk_psa (ps_fs p) (ps_rbw p) m None (ps_r p) (ps_osr p) (ps_overlap p) (ps_fullscale p) (ps_sb p).
Definition with_sb (m : string) (p : psa_par) : psa_par :=
  mk_psa (ps_fs p) (ps_rbw p) (ps_mode p) (ps_obw p) (ps_r p) (ps_osr p) (ps_overlap p) (ps_fullscale p) m.
(** The signal times a real number; the signal plus a constant. *)
Definition amplified (c : R) (s : psa_signal) : psa_signal :=
  match s with RealSig x => RealSig (map (Rmult c) x) | CplxSig x => CplxSig (map (fun v => (c * fst v, c * snd v)) x) end.
Definition shifted (c : R) (s : psa_signal) : psa_signal :=
  match s with RealSig x => RealSig (map (Rplus c) x) | CplxSig x => CplxSig (map (fun v => (c + fst v, snd v)) x) end.
Definition size (s : psa_signal) : nat := match s with RealSig x => length x | CplxSig x => length x end.
(** All values are zero. *)
Definition silent (s : psa_signal) : Prop := forall v, In v (points s) -> fst v = 0 /\ snd v = 0.
(** A usable window function: the right number of values, and a sum different from zero. *)
Definition good_window (w : nat -> list R) : Prop := forall n, (0 < n)%nat -> length (w n) = n /\ sum_upto (fun k => nth k (w n) 0) n <> 0.
(** Energy of the values [x n .. x (n + len - 1)] without their mean, weighted with the squared window. *)
Definition mean_from (f : nat -> R) (a len : nat) : R := sum_upto (fun i => f (a + i)%nat) len / INR len.
Definition window_energy (w : list R) (f : nat -> R) (a : nat) : R :=
  sum_upto (fun i => (nth i w 0 * (f (a + i)%nat - mean_from f a (length w))) * (nth i w 0 * (f (a + i)%nat - mean_from f a (length w)))) (length w).
Definition total (l : list R) : R := sum_upto (fun k => nth k l 0) (length l).
(** A tone with [c] periods in [w] samples. *)
Definition tone (A : R) (c w : nat) (phi : R) (n : nat) : list R := map (fun i => A * cos (INR i * (2 * PI * INR c / INR w) + phi)) (seq 0 n).
(** The resolution bandwidth in effect, and the bandwidth the noise is thought to fill. *)
Definition resolution (p : psa_par) (n : nat) : R := match ps_rbw p with Some b => b | None => Rmax (ps_fs p / 1000) (ps_fs p / (5 * INR n)) end.
Definition noise_band (p : psa_par) (s : psa_signal) (b : R) : Prop :=
  let half := (forall v, In v (points s) -> snd v = 0) /\ ps_sb p = "DSB"%string in (half -> b = ps_fs p / 2) /\ (~ half -> b = ps_fs p).
(** The mode in effect. *)
Definition is_mode (p : psa_par) (m : string) : Prop := (ps_obw p = None /\ m = ps_mode p) \/ (ps_obw p <> None /\ m = "dBc"%string).
