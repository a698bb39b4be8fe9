(** Kernel computation of the order certificates for the six PRBS polynomials. *)
From Verif Require Import Py B_list M_aux M_prbs P_gf2 S_prbs P_prbs.

Definition prbs_factors (t : prbs_type) : list Z :=
  match t with
  | PRBS7 => [127] | PRBS9 => [7; 73] | PRBS11 => [23; 89]
  | PRBS13 => [8191] | PRBS15 => [7; 31; 151] | PRBS31 => [2147483647]
  end.

Ltac fixes := intros q Hq; repeat (destruct Hq as [<-|Hq]; [split; [lia|vm_compute; reflexivity]|]); destruct Hq.

Lemma prbs_cert t : maxlen_cert (prbs_value t) (get_polynomial t) (prbs_factors t).
Proof.
  destruct t; (split; [vm_compute; reflexivity|split; [fixes|]]).
  - apply (div_check_all (Z.to_nat 12)); [reflexivity|reflexivity|vm_compute; reflexivity].
  - apply (div_check_all (Z.to_nat 23)); [reflexivity|reflexivity|vm_compute; reflexivity].
  - apply (div_check_all (Z.to_nat 46)); [reflexivity|reflexivity|vm_compute; reflexivity].
  - apply (div_check_all (Z.to_nat 91)); [reflexivity|reflexivity|vm_compute; reflexivity].
  - apply (div_check_all (Z.to_nat 182)); [reflexivity|reflexivity|vm_compute; reflexivity].
  - apply (div_check_all (Z.to_nat 46341)); [reflexivity| |vm_compute; reflexivity].
    rewrite Z2Nat.id by lia. reflexivity.
Qed.
