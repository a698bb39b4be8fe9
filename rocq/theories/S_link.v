(** Vocabulary for the statements about the analog part of the example link and the whole link. *)
From Coq Require Import Reals String.
From Verif Require Import Py M_delay M_channel S_channel M_ctle S_ctle M_link.
Import List.
Open Scope R_scope.

(** A pulse that can be shaped with. *)
Definition usable_pulse (pulse : string) (beta : R) : Prop :=
  (pulse = "rect" \/ pulse = "sinc" \/ (beta <> 0 /\ (pulse = "rcos" \/ pulse = "rrc")))%string.
(** A channel whose memories fit its settings. *)
Definition channel_sized (c : channel) (o s : nat) : Prop :=
  (1 <= o)%nat /\ (1 <= s)%nat /\ ch_osr c = Z.of_nat o /\ ch_span c = Z.of_nat s /\ usable_pulse (ch_pulse c) (ch_rolloff c) /\
  length (ch_pulse_zi c) = (2 * (o * s) - 1)%nat /\
  exists a, ch_iir c = Some a /\ usable (ch_fir c) (AList a) (length (ch_zi c)).
(** The channel without its noise source. *)
Definition noise_free (c : channel) : channel :=
  mk_ch (ch_pulse c) (ch_span c) (ch_rolloff c) (if (ch_type c =? "awgn")%string then "pulse"%string else ch_type c) (ch_fir c) (ch_iir c) (ch_osr c) None (ch_pulse_zi c) (ch_zi c).
(** Channel types that add no noise. *)
Definition linear_type (c : channel) : Prop := (ch_type c = "pulse" \/ (ch_type c = "isi_awgn" /\ ch_snr c = None))%string.
(** Chunks of samples, none of them nan, as the channel returns them. *)
Definition returned (cs : list (list R)) : list (option (list num)) := map (fun y => Some (map Some y)) cs.
(** A CTLE with a sensible design whose memory fits. *)
Definition ctle_sized (c : ctle_obj) : Prop :=
  design (ct_zeros c) (ct_poles c) (ct_gain c) (ct_fs c) (IZR (ct_osr c)) /\ length (ct_zi c) = Nat.max (length (ct_zeros c)) (length (ct_poles c)).
Fixpoint ctle_calls (c : ctle_obj) (chunks : list (list R)) : res (option (ctle_obj * list (list R))) :=
  match chunks with
  | [] => Ok (Some (c, []))
  | x :: xs => r <- ctle_call c x ;;
               match r with
               | None => Ok None
               | Some (c1, y) => r <- ctle_calls c1 xs ;; Ok match r with Some (c2, ys) => Some (c2, y :: ys) | None => None end
               end
  end.
