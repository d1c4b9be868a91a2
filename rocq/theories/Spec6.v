(** Specification vocabulary: rounding, powers. *)
From Verif Require Export Spec2.
Local Open Scope R_scope.

(** |x| to the power p, for p > 0. *)
Definition absp (x p : R) : R := if Req_EM_T x 0 then 0 else Rpower (Rabs x) p.
