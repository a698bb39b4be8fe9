(** Vocabulary for the statements about the stages of the receiver of the example link. *)
From Coq Require Import String.
From Verif Require Import Py PyQ M_aux S_rx S_filter M_sim M_rxloop.
Import List.
Open Scope Z_scope.

(** An equaliser whose vectors and memories have the sizes its settings announce, with levels if there is a DFE. *)
Definition sized (e : eq_state) : Prop :=
  length (e_ffe_vec e) = (e_pre e + e_post e + 1)%nat /\ length (e_zi_ffe e) = (e_pre e + e_post e + 1)%nat /\
  length (e_dfe_vec e) = e_dfe e /\ length (e_zi_dfe e) = e_dfe e /\
  ((0 < e_dfe e)%nat -> exists l, e_levels e = Some l /\ l <> []).
(** A chunk the equaliser can be streamed with: not empty, and at least as long as an FFE without DFE. *)
Definition long_enough (e : eq_state) (x : list Qc) : Prop :=
  x <> [] /\ (e_dfe e = 0%nat -> (2 <= length (e_ffe_vec e))%nat -> (length (e_ffe_vec e) <= length x)%nat).
(** Equalising a list of chunks one after the other. *)
Fixpoint eq_calls (e : eq_state) (cs : list (list Qc)) : res (list Qc * eq_state) :=
  match cs with
  | [] => Ok ([], e)
  | c :: cs' => r <- eq_call e c ;; w <- eq_calls (snd r) cs' ;; Ok (fst r ++ fst w, snd w)
  end.
(** Sampling instants of the ADC in a chunk of [n] samples: phase, phase + step, ... below n. *)
Definition instants (phase step n : nat) : list nat := map (fun k => phase + k * step)%nat (seq 0 ((n - phase + step - 1) / step)).
(** An ADC with a documented number format, sampling [a_rate] times per symbol of [a_osr] samples. *)
Definition adc_good (a : adc_state) : Prop :=
  (1 <= a_total a)%nat /\ (a_type a = "u" \/ a_type a = "s" \/ a_type a = "ss")%string /\ 0 < a_rate a /\ 0 < a_osr a / a_rate a /\ 0 <= a_phase a.
Definition adc_step (a : adc_state) : nat := Z.to_nat (a_osr a / a_rate a).
(** The converted sample: nearest integer (ties downwards) of the format, then read with [a_frac] fractional bits. *)
Definition adc_low (a : adc_state) : Z := q_low (a_total a) (negb (a_type a =? "u")%string) (a_type a =? "ss")%string.
Definition adc_high (a : adc_state) : Z := q_high (a_total a) (negb (a_type a =? "u")%string).
Definition converted (a : adc_state) (x : Qc) : Qc := (ofZ (saturate (adc_low a) (adc_high a) (round_down_ties x)) / pow2 (a_frac a))%Qc.
(** Receiver scalings for which every level of the constellation is demapped to its own symbol. *)
Definition scale_fits (c : constellation) (f : Qc) : Prop :=
  match c with
  | NRZ => (ofZ 0 < f /\ f < ofZ 2)%Qc
  | OOK => (ofZ 1 / ofZ 2 < f /\ f < ofZ 3 / ofZ 2)%Qc
  | PAM3 => (ofZ 1 / ofZ 2 <= f /\ f <= ofZ 3 / ofZ 2)%Qc
  | PAM4 => (ofZ 2 < f /\ f < ofZ 4)%Qc
  end.
(** Half the distance of two neighbouring receiver levels (levels scaled to a largest absolute value [f]). *)
Definition half_spacing (c : constellation) (f : Qc) : Qc :=
  match c with NRZ => f | OOK => f / ofZ 2 | PAM3 => f / ofZ 2 | PAM4 => f / ofZ 3 end%Qc.
(** An equaliser with one unit tap and no DFE. *)
Definition plain_eq (e : eq_state) : Prop := e_dfe e = 0%nat /\ e_ffe_vec e = (ofZ 1 :: []).
(** A receiver of the link with settings [cd], [m] outside convergence, sampling once per symbol, not equalising. *)
Definition listening (cd : coding_data) (m : mapping_data) (r : receiver) : Prop :=
  rx_converge r = false /\ rx_levels r = rx_level_vec m /\ rx_constel r = md_constel m /\ rx_cd r = cd /\ plain_eq (rx_eq r) /\
  adc_good (rx_adc r) /\ a_rate (rx_adc r) = 1 /\ 0 <= a_phase (rx_adc r) < a_osr (rx_adc r).
(** The chunk [y] of transmitted levels arrives as the analog chunk [x]: one symbol every osr samples; the converted and
    amplified sample of every symbol is closer than [eps] to the transmitted level times [scale]. *)
Definition arrives (r : receiver) (scale eps : Qc) (y x : list Qc) : Prop :=
  Z.of_nat (length x) = a_osr (rx_adc r) * Z.of_nat (length y) /\
  forall n, (n < length y)%nat ->
    (Qcabs (rx_gain r * converted (rx_adc r) (nth (Z.to_nat (a_phase (rx_adc r)) + n * Z.to_nat (a_osr (rx_adc r))) x 0) - nth n y 0 * scale) < eps)%Qc.
(** All chunks of a history, with the data handed out. *)
Fixpoint receive_all (f : option lms_fun) (r : receiver) (xs : list (list Qc)) : outcome (list (list Q)) :=
  match xs with
  | [] => Done (Ok [])
  | x :: xs' => obind (receive f r x) (fun p => obind (receive_all f (fst p) xs') (fun l => Done (Ok (snd p :: l))))
  end.
