(** Vocabulary for the statements about the receiver of the example link. *)
From Verif Require Import Py PyQ M_aux M_sim M_rxloop.
Open Scope Z_scope.

(** The receiver after a history of CTLE output chunks (when no call raised). *)
Fixpoint after (f : option lms_fun) (r : receiver) (chunks : list (list Qc)) : outcome receiver :=
  match chunks with
  | [] => Done (Ok r)
  | c :: l => obind (receive f r c) (fun p => after f (fst p) l)
  end.
Definition is_step (s : Z) : Prop := s = -1 \/ s = 0 \/ s = 1.
(** The sampling phase in use is the stored one, one of [0 .. max). *)
Definition phase_ok (r : receiver) : Prop := a_phase (rx_adc r) = rx_phase r /\ 0 <= rx_phase r < rx_max_phase r.
Definition mean_square (l : list Qc) : Qc := (sumQ (map (fun v => v * v)%Qc l) / ofZ (Z.of_nat (length l)))%Qc.
