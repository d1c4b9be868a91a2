(** Vocabulary for C112: what a caller has to provide. *)
From Verif Require Import LBase MMatrix MFrustum MMisc.
Local Open Scope nat_scope.
(** Division and square root always deliver a value (true of IEEE floats). *)
Definition total_ops (T : Type) {ST : Scalar T} : Prop :=
  (forall a b : T, exists c, sdiv a b = Ok c) /\ (forall a : T, exists c, ssqrt a = Ok c).
(** An operand with [n] elements: another object, or the object being written
    (which has [own] elements). *)
Definition arg_of {T} (own n : nat) (o : arg T) : Prop := match o with Val l => length l = n | Self => own = n end.
(** A scalar argument: any value, or a reference to one of [n] elements. *)
Definition sref_of {T} (n : nat) (s : sref T) : Prop := match s with SVal _ => True | SCell k => k < n end.
(** A pair of 3-vectors (a box, a ray). *)
Definition two3 {T} (b : list T * list T) : Prop := length (fst b) = 3 /\ length (snd b) = 3.
(** Six planes of four coefficients. *)
Definition planes4 {T} (c : @culler T) : Prop := forall p, List.In p (fc_planes c) -> length p = 4.
(** The working storage of the QR decomposition of an M x N matrix. *)
Definition qr_sized {T} (M N : nat) (s : @qr_state T) : Prop :=
  let '(Q, R, v, q, a) := s in
  length Q = M * M /\ length R = N * N /\ length v = M /\ length q = M /\ length a = M.
(** [guarded ok m P]: the call returns (with [P] of the result) when [ok], and
    throws otherwise; it never has undefined behaviour. *)
Definition guarded {A} (ok : Prop) (m : res A) (P : A -> Prop) : Prop := (ok -> returns m P) /\ (~ ok -> m = Throw).

