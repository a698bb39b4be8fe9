(** Vocabulary for C46: the Gaussian mixture of the docstring and mean log likelihoods. *)
From Coq Require Import Reals.
From Verif Require Import Py.
Open Scope R_scope.

(** Normal density of standard deviation [sigma] around zero. *)
Definition gaussian (sigma u : R) : R := / sqrt (2 * PI * (sigma * sigma)) * exp (- (u * u / (2 * (sigma * sigma)))).
Fixpoint total (l : list R) : R := match l with [] => 0 | x :: l => x + total l end.
Definition average (l : list R) : R := total l / INR (length l).
(** Equiprobable mixture of normals around the levels. *)
Definition mixture (levels : list R) (sigma x : R) : R := average (map (fun mu => gaussian sigma (x - mu)) levels).
(** The loss: mean negative log likelihood. *)
Definition neg_log_likelihood (levels : list R) (sigma : R) (xs : list R) : R := average (map (fun x => - ln (mixture levels sigma x)) xs).
(** Value of a signal at time [k], zero outside. *)
Definition signalR (l : list R) (k : Z) : R := if ((0 <=? k) && (k <? Z.of_nat (length l)))%Z then nth (Z.to_nat k) l 0 else 0.
(** The factor between the reported and the true derivative. *)
Definition scale (levels : list R) (sigma : R) : R := INR (length levels) * sqrt (2 * PI * (sigma * sigma)).
