(** Property C83: the index checks of VMMLIB_SAFE_ACCESSORS
    (vmmlib_config.hpp:39-60) only ever replace a result by an exception. *)
From Verif Require Import MVector MMatrix MMatrix2 MQuaternion MAabb MFrustum MMisc MNum MIo.
Local Open Scope nat_scope.
Local Open Scope list_scope.

(** The two builds. *)
Definition checked : Cfg := {| safe := true |}.
Definition unchecked : Cfg := {| safe := false |}.
(** A call throws in the checked build, or does the same in both builds
    (returns the same value and leaves the same contents; a call that is
    undefined or leaves the reals is so in both). *)
Definition only_throws {A : Type} (call : Cfg -> res A) : Prop :=
  call checked = Throw \/ call unchecked = call checked.

Lemma ot_const {A} (x : res A) : only_throws (fun _ => x).
Proof. right. reflexivity. Qed.
Lemma ot_bind {A B} (m : Cfg -> res A) (k : Cfg -> A -> res B) :
  only_throws m -> (forall a, only_throws (fun c => k c a)) -> only_throws (fun c => bind (m c) (k c)).
Proof.
  intros [E|E] K; unfold only_throws; rewrite E; [left; reflexivity|].
  destruct (m checked) as [a| | |]; cbn; try (right; reflexivity). apply (K a).
Qed.
Lemma ot_for {S} (lo hi : nat) (b : Cfg -> nat -> S -> res S) (s : S) :
  (forall i s, only_throws (fun c => b c i s)) -> only_throws (fun c => for_ lo hi (b c) s).
Proof.
  intros H. unfold for_. generalize (hi - lo) as n. intros n. revert lo s. induction n as [|n IH]; intros lo s; [apply ot_const|].
  cbn [for_n]. apply (ot_bind (fun c => b c lo s) (fun c s' => for_n n (Datatypes.S lo) (b c) s')); [apply H|]. intros a. apply IH.
Qed.
Lemma ot_forr {S A} (lo hi : nat) (b : Cfg -> nat -> S -> res (S + A)) (s : S) :
  (forall i s, only_throws (fun c => b c i s)) -> only_throws (fun c => forr lo hi (b c) s).
Proof.
  intros H. unfold forr. generalize (hi - lo) as n. intros n. revert lo s. induction n as [|n IH]; intros lo s; [apply ot_const|].
  cbn [forr_n]. apply (ot_bind (fun c => b c lo s) (fun c x => match x with inl s' => forr_n n (Datatypes.S lo) (b c) s' | inr a => Ok (inr a) end)); [apply H|].
  intros [a|a]; [apply IH|apply ot_const].
Qed.
Lemma ot_check {A} (b : bool) (x : Cfg -> res A) : only_throws x -> only_throws (fun c => if b && @safe c then Throw else x c).
Proof. intros H. destruct b; cbn; [left; reflexivity|exact H]. Qed.
Lemma ot_steps {T} (step : Cfg -> list T -> visibility -> res (visibility + visibility)) planes vis :
  (forall p v, only_throws (fun c => step c p v)) -> only_throws (fun c => fc_steps (step c) planes vis).
Proof.
  intros H. revert vis. induction planes as [|p l IH]; intros vis; [apply ot_const|]. cbn [fc_steps].
  apply (ot_bind (fun c => step c p vis) (fun c x => match x with inl vis => fc_steps (step c) l vis | inr r => Ok r end)); [apply H|].
  intros [a|a]; [apply IH|apply ot_const].
Qed.
Lemma ot_both {T} (f : Cfg -> list T -> res (list T)) b : (forall v, only_throws (fun c => f c v)) -> only_throws (fun c => box_both (f c) b).
Proof.
  intros H. unfold box_both. apply (ot_bind (fun c => f c (fst b))); [apply H|]. intros a.
  apply (ot_bind (fun c => f c (snd b))); [apply H|]. intros a'. apply ot_const.
Qed.
Lemma ot_q4 {T A} (q : list T) (k : Cfg -> T -> T -> T -> T -> res A) :
  (forall x y z w, only_throws (fun c => k c x y z w)) -> only_throws (fun c => q4 q (k c)).
Proof.
  intros H. unfold q4. destruct (rd q 0); try (right; reflexivity). destruct (rd q 1); try (right; reflexivity).
  destruct (rd q 2); try (right; reflexivity). destruct (rd q 3); try (right; reflexivity). apply H.
Qed.

Create HintDb ot.
Ltac ot_step := cbv beta zeta; first
  [ apply ot_const
  | solve [auto with ot nocore]
  | apply ot_check
  | apply ot_for; intros
  | apply ot_forr; intros
  | apply ot_steps; intros
  | apply ot_both; intros
  | apply ot_q4; intros
  | match goal with |- only_throws (fun c => match ?p with _ => _ end) => destruct p end
  | apply ot_bind; [|intros] ].
Ltac ot := repeat ot_step.

Lemma ot_vat : forall (T : Type) (a1 : nat) (a2 : list T) (a3 : nat), only_throws (fun cfg => vat a1 a2 a3).
Proof. intros. unfold vat. ot. Qed.
#[local] Hint Resolve ot_vat : ot.
Lemma ot_vset : forall (T : Type) (a1 : nat) (a2 : list T) (a3 : nat) (a4 : T), only_throws (fun cfg => vset a1 a2 a3 a4).
Proof. intros. unfold vset. ot. Qed.
#[local] Hint Resolve ot_vset : ot.
Lemma ot_vec_set_last : forall (T : Type) (a1 : nat) (a2 : list T) (a3 : list T) (a4 : T), only_throws (fun cfg => vec_set_last a1 a2 a3 a4).
Proof. intros. unfold vec_set_last. ot. Qed.
#[local] Hint Resolve ot_vec_set_last : ot.
Lemma ot_vec_zip : forall (T : Type) (ST : Scalar T) (a1 : nat) (a2 : (T -> T -> res T)) (a3 : list T) (a4 : list T), only_throws (fun cfg => vec_zip a1 a2 a3 a4).
Proof. intros. unfold vec_zip. ot. Qed.
#[local] Hint Resolve ot_vec_zip : ot.
Lemma ot_vec_map : forall (T : Type) (ST : Scalar T) (a1 : nat) (a2 : (T -> res T)) (a3 : list T), only_throws (fun cfg => vec_map a1 a2 a3).
Proof. intros. unfold vec_map. ot. Qed.
#[local] Hint Resolve ot_vec_map : ot.
Lemma ot_vec_mul : forall (T : Type) (ST : Scalar T) (a1 : nat) (a2 : list T) (a3 : list T), only_throws (fun cfg => vec_mul a1 a2 a3).
Proof. intros. unfold vec_mul. ot. Qed.
#[local] Hint Resolve ot_vec_mul : ot.
Lemma ot_vec_div : forall (T : Type) (ST : Scalar T) (a1 : nat) (a2 : list T) (a3 : list T), only_throws (fun cfg => vec_div a1 a2 a3).
Proof. intros. unfold vec_div. ot. Qed.
#[local] Hint Resolve ot_vec_div : ot.
Lemma ot_vec_add : forall (T : Type) (ST : Scalar T) (a1 : nat) (a2 : list T) (a3 : list T), only_throws (fun cfg => vec_add a1 a2 a3).
Proof. intros. unfold vec_add. ot. Qed.
#[local] Hint Resolve ot_vec_add : ot.
Lemma ot_vec_sub : forall (T : Type) (ST : Scalar T) (a1 : nat) (a2 : list T) (a3 : list T), only_throws (fun cfg => vec_sub a1 a2 a3).
Proof. intros. unfold vec_sub. ot. Qed.
#[local] Hint Resolve ot_vec_sub : ot.
Lemma ot_vec_mul_s : forall (T : Type) (ST : Scalar T) (a1 : nat) (a2 : list T) (a3 : T), only_throws (fun cfg => vec_mul_s a1 a2 a3).
Proof. intros. unfold vec_mul_s. ot. Qed.
#[local] Hint Resolve ot_vec_mul_s : ot.
Lemma ot_vec_div_s : forall (T : Type) (ST : Scalar T) (a1 : nat) (a2 : list T) (a3 : T), only_throws (fun cfg => vec_div_s a1 a2 a3).
Proof. intros. unfold vec_div_s. ot. Qed.
#[local] Hint Resolve ot_vec_div_s : ot.
Lemma ot_vec_add_s : forall (T : Type) (ST : Scalar T) (a1 : nat) (a2 : list T) (a3 : T), only_throws (fun cfg => vec_add_s a1 a2 a3).
Proof. intros. unfold vec_add_s. ot. Qed.
#[local] Hint Resolve ot_vec_add_s : ot.
Lemma ot_vec_sub_s : forall (T : Type) (ST : Scalar T) (a1 : nat) (a2 : list T) (a3 : T), only_throws (fun cfg => vec_sub_s a1 a2 a3).
Proof. intros. unfold vec_sub_s. ot. Qed.
#[local] Hint Resolve ot_vec_sub_s : ot.
Lemma ot_vec_zip_assign : forall (T : Type) (a1 : nat) (a2 : (T -> T -> res T)) (a3 : list T) (a4 : arg T), only_throws (fun cfg => vec_zip_assign a1 a2 a3 a4).
Proof. intros. unfold vec_zip_assign. ot. Qed.
#[local] Hint Resolve ot_vec_zip_assign : ot.
Lemma ot_vec_map_assign : forall (T : Type) (a1 : nat) (a2 : (T -> res T)) (a3 : list T), only_throws (fun cfg => vec_map_assign a1 a2 a3).
Proof. intros. unfold vec_map_assign. ot. Qed.
#[local] Hint Resolve ot_vec_map_assign : ot.
Lemma ot_vec_mul_assign : forall (T : Type) (ST : Scalar T) (a1 : nat) (a2 : list T) (a3 : arg T), only_throws (fun cfg => vec_mul_assign a1 a2 a3).
Proof. intros. unfold vec_mul_assign. ot. Qed.
#[local] Hint Resolve ot_vec_mul_assign : ot.
Lemma ot_vec_div_assign : forall (T : Type) (ST : Scalar T) (a1 : nat) (a2 : list T) (a3 : arg T), only_throws (fun cfg => vec_div_assign a1 a2 a3).
Proof. intros. unfold vec_div_assign. ot. Qed.
#[local] Hint Resolve ot_vec_div_assign : ot.
Lemma ot_vec_add_assign : forall (T : Type) (ST : Scalar T) (a1 : nat) (a2 : list T) (a3 : arg T), only_throws (fun cfg => vec_add_assign a1 a2 a3).
Proof. intros. unfold vec_add_assign. ot. Qed.
#[local] Hint Resolve ot_vec_add_assign : ot.
Lemma ot_vec_sub_assign : forall (T : Type) (ST : Scalar T) (a1 : nat) (a2 : list T) (a3 : arg T), only_throws (fun cfg => vec_sub_assign a1 a2 a3).
Proof. intros. unfold vec_sub_assign. ot. Qed.
#[local] Hint Resolve ot_vec_sub_assign : ot.
Lemma ot_vec_mul_assign_s : forall (T : Type) (ST : Scalar T) (a1 : nat) (a2 : list T) (a3 : T), only_throws (fun cfg => vec_mul_assign_s a1 a2 a3).
Proof. intros. unfold vec_mul_assign_s. ot. Qed.
#[local] Hint Resolve ot_vec_mul_assign_s : ot.
Lemma ot_vec_div_assign_s : forall (T : Type) (ST : Scalar T) (a1 : nat) (a2 : list T) (a3 : T), only_throws (fun cfg => vec_div_assign_s a1 a2 a3).
Proof. intros. unfold vec_div_assign_s. ot. Qed.
#[local] Hint Resolve ot_vec_div_assign_s : ot.
Lemma ot_vec_add_assign_s : forall (T : Type) (ST : Scalar T) (a1 : nat) (a2 : list T) (a3 : T), only_throws (fun cfg => vec_add_assign_s a1 a2 a3).
Proof. intros. unfold vec_add_assign_s. ot. Qed.
#[local] Hint Resolve ot_vec_add_assign_s : ot.
Lemma ot_vec_sub_assign_s : forall (T : Type) (ST : Scalar T) (a1 : nat) (a2 : list T) (a3 : T), only_throws (fun cfg => vec_sub_assign_s a1 a2 a3).
Proof. intros. unfold vec_sub_assign_s. ot. Qed.
#[local] Hint Resolve ot_vec_sub_assign_s : ot.
Lemma ot_vec_dot : forall (T : Type) (ST : Scalar T) (a1 : nat) (a2 : list T) (a3 : list T), only_throws (fun cfg => vec_dot a1 a2 a3).
Proof. intros. unfold vec_dot. ot. Qed.
#[local] Hint Resolve ot_vec_dot : ot.
Lemma ot_vec_normalize : forall (T : Type) (ST : Scalar T) (a1 : nat) (a2 : list T), only_throws (fun cfg => vec_normalize a1 a2).
Proof. intros. unfold vec_normalize. ot. Qed.
#[local] Hint Resolve ot_vec_normalize : ot.
Lemma ot_vec_normalized : forall (T : Type) (ST : Scalar T) (a1 : nat) (a2 : list T), only_throws (fun cfg => vec_normalized a1 a2).
Proof. intros. unfold vec_normalized. ot. Qed.
#[local] Hint Resolve ot_vec_normalized : ot.
Lemma ot_vec_squared_distance : forall (T : Type) (ST : Scalar T) (a1 : nat) (a2 : list T) (a3 : list T), only_throws (fun cfg => vec_squared_distance a1 a2 a3).
Proof. intros. unfold vec_squared_distance. ot. Qed.
#[local] Hint Resolve ot_vec_squared_distance : ot.
Lemma ot_vec_distance : forall (T : Type) (ST : Scalar T) (a1 : nat) (a2 : list T) (a3 : list T), only_throws (fun cfg => vec_distance a1 a2 a3).
Proof. intros. unfold vec_distance. ot. Qed.
#[local] Hint Resolve ot_vec_distance : ot.
Lemma ot_vec_product : forall (T : Type) (ST : Scalar T) (a1 : nat) (a2 : list T), only_throws (fun cfg => vec_product a1 a2).
Proof. intros. unfold vec_product. ot. Qed.
#[local] Hint Resolve ot_vec_product : ot.
Lemma ot_vec_compute_normal_into : forall (T : Type) (ST : Scalar T) (a1 : list T) (a2 : arg T) (a3 : arg T) (a4 : arg T), only_throws (fun cfg => vec_compute_normal_into a1 a2 a3 a4).
Proof. intros. unfold vec_compute_normal_into. ot. Qed.
#[local] Hint Resolve ot_vec_compute_normal_into : ot.
Lemma ot_vec_compute_normal : forall (T : Type) (ST : Scalar T) (a1 : list T) (a2 : list T) (a3 : list T), only_throws (fun cfg => vec_compute_normal a1 a2 a3).
Proof. intros. unfold vec_compute_normal. ot. Qed.
#[local] Hint Resolve ot_vec_compute_normal : ot.
Lemma ot_vec_sub_vector_set : forall (T : Type) (a1 : nat) (a2 : list T) (a3 : nat) (a4 : nat) (a5 : T), only_throws (fun cfg => vec_sub_vector_set a1 a2 a3 a4 a5).
Proof. intros. unfold vec_sub_vector_set. ot. Qed.
#[local] Hint Resolve ot_vec_sub_vector_set : ot.
Lemma ot_vec_to_hom : forall (T : Type) (ST : Scalar T) (a1 : nat) (a2 : list T) (a3 : list T), only_throws (fun cfg => vec_to_hom a1 a2 a3).
Proof. intros. unfold vec_to_hom. ot. Qed.
#[local] Hint Resolve ot_vec_to_hom : ot.
Lemma ot_vec_from_hom : forall (T : Type) (ST : Scalar T) (a1 : nat) (a2 : list T) (a3 : list T), only_throws (fun cfg => vec_from_hom a1 a2 a3).
Proof. intros. unfold vec_from_hom. ot. Qed.
#[local] Hint Resolve ot_vec_from_hom : ot.
Lemma ot_vec_compute_plane : forall (T : Type) (ST : Scalar T) (a1 : list T) (a2 : list T) (a3 : list T), only_throws (fun cfg => vec_compute_plane a1 a2 a3).
Proof. intros. unfold vec_compute_plane. ot. Qed.
#[local] Hint Resolve ot_vec_compute_plane : ot.
Lemma ot_vec_project_sphere : forall (T : Type) (ST : Scalar T) (a1 : list T) (a2 : list T), only_throws (fun cfg => vec_project_sphere a1 a2).
Proof. intros. unfold vec_project_sphere. ot. Qed.
#[local] Hint Resolve ot_vec_project_sphere : ot.
Lemma ot_vec_dist_sphere : forall (T : Type) (ST : Scalar T) (a1 : list T) (a2 : list T), only_throws (fun cfg => vec_dist_sphere a1 a2).
Proof. intros. unfold vec_dist_sphere. ot. Qed.
#[local] Hint Resolve ot_vec_dist_sphere : ot.
Lemma ot_vec_dist_plane : forall (T : Type) (ST : Scalar T) (a1 : list T) (a2 : list T), only_throws (fun cfg => vec_dist_plane a1 a2).
Proof. intros. unfold vec_dist_plane. ot. Qed.
#[local] Hint Resolve ot_vec_dist_plane : ot.
Lemma ot_vec_project_plane : forall (T : Type) (ST : Scalar T) (a1 : list T) (a2 : list T), only_throws (fun cfg => vec_project_plane a1 a2).
Proof. intros. unfold vec_project_plane. ot. Qed.
#[local] Hint Resolve ot_vec_project_plane : ot.
Lemma ot_vec_equals : forall (T : Type) (ST : Scalar T) (a1 : nat) (a2 : list T) (a3 : list T) (a4 : T), only_throws (fun cfg => vec_equals a1 a2 a3 a4).
Proof. intros. unfold vec_equals. ot. Qed.
#[local] Hint Resolve ot_vec_equals : ot.
Lemma ot_vec_equals_default : forall (T : Type) (ST : Scalar T) (a1 : nat) (a2 : list T) (a3 : list T), only_throws (fun cfg => vec_equals_default a1 a2 a3).
Proof. intros. unfold vec_equals_default. ot. Qed.
#[local] Hint Resolve ot_vec_equals_default : ot.
Lemma ot_vec_less : forall (T : Type) (ST : Scalar T) (a1 : nat) (a2 : list T) (a3 : list T), only_throws (fun cfg => vec_less a1 a2 a3).
Proof. intros. unfold vec_less. ot. Qed.
#[local] Hint Resolve ot_vec_less : ot.
Lemma ot_vec_assign_fill : forall (T : Type) (a1 : nat) (a2 : list T) (a3 : T), only_throws (fun cfg => vec_assign_fill a1 a2 a3).
Proof. intros. unfold vec_assign_fill. ot. Qed.
#[local] Hint Resolve ot_vec_assign_fill : ot.
Lemma ot_vec_scale_to : forall (T : Type) (ST : Scalar T) (U : Type) (a1 : (T -> U)) (a2 : T) (a3 : nat) (a4 : list T) (a5 : list U) (a6 : T) (a7 : T), only_throws (fun cfg => vec_scale_to a1 a2 a3 a4 a5 a6 a7).
Proof. intros. unfold vec_scale_to. ot. Qed.
#[local] Hint Resolve ot_vec_scale_to : ot.
Lemma ot_vec_set_random : forall (T : Type) (ST : Scalar T) (a1 : (Z -> nat -> Z)) (a2 : Z) (a3 : (Z -> T)) (a4 : nat) (a5 : list T) (a6 : Z) (a7 : rng), only_throws (fun cfg => vec_set_random a1 a2 a3 a4 a5 a6 a7).
Proof. intros. unfold vec_set_random. ot. Qed.
#[local] Hint Resolve ot_vec_set_random : ot.
Lemma ot_vec_rotate : forall (T : Type) (ST : Scalar T) (TT : Trig T) (a1 : list T) (a2 : T) (a3 : list T), only_throws (fun cfg => vec_rotate a1 a2 a3).
Proof. intros. unfold vec_rotate. ot. Qed.
#[local] Hint Resolve ot_vec_rotate : ot.
Lemma ot_mat_at : forall (T : Type) (a1 : nat) (a2 : nat) (a3 : list T) (a4 : nat) (a5 : nat), only_throws (fun cfg => mat_at a1 a2 a3 a4 a5).
Proof. intros. unfold mat_at. ot. Qed.
#[local] Hint Resolve ot_mat_at : ot.
Lemma ot_mat_put : forall (T : Type) (a1 : nat) (a2 : nat) (a3 : list T) (a4 : nat) (a5 : nat) (a6 : T), only_throws (fun cfg => mat_put a1 a2 a3 a4 a5 a6).
Proof. intros. unfold mat_put. ot. Qed.
#[local] Hint Resolve ot_mat_put : ot.
Lemma ot_mat_sq_at : forall (T : Type) (a1 : nat) (a2 : nat) (a3 : list T) (a4 : nat) (a5 : nat), only_throws (fun cfg => mat_sq_at a1 a2 a3 a4 a5).
Proof. intros. unfold mat_sq_at. ot. Qed.
#[local] Hint Resolve ot_mat_sq_at : ot.
Lemma ot_mat_sq_put : forall (T : Type) (a1 : nat) (a2 : nat) (a3 : list T) (a4 : nat) (a5 : nat) (a6 : T), only_throws (fun cfg => mat_sq_put a1 a2 a3 a4 a5 a6).
Proof. intros. unfold mat_sq_put. ot. Qed.
#[local] Hint Resolve ot_mat_sq_put : ot.
Lemma ot_mat_fill_rc : forall (T : Type) (a1 : nat) (a2 : nat) (a3 : (nat -> nat -> list T -> res T)) (a4 : list T), only_throws (fun cfg => mat_fill_rc a1 a2 a3 a4).
Proof. intros. unfold mat_fill_rc. ot. Qed.
#[local] Hint Resolve ot_mat_fill_rc : ot.
Lemma ot_mat_fill : forall (T : Type) (a1 : nat) (a2 : nat) (a3 : list T) (a4 : T), only_throws (fun cfg => mat_fill a1 a2 a3 a4).
Proof. intros. unfold mat_fill. ot. Qed.
#[local] Hint Resolve ot_mat_fill : ot.
Lemma ot_mat_zero : forall (T : Type) (ST : Scalar T) (a1 : nat) (a2 : nat) (a3 : list T), only_throws (fun cfg => mat_zero a1 a2 a3).
Proof. intros. unfold mat_zero. ot. Qed.
#[local] Hint Resolve ot_mat_zero : ot.
Lemma ot_mat_default : forall (T : Type) (ST : Scalar T) (a1 : nat) (a2 : nat), only_throws (fun cfg => mat_default a1 a2).
Proof. intros. unfold mat_default. ot. Qed.
#[local] Hint Resolve ot_mat_default : ot.
Lemma ot_mat_identity : forall (T : Type) (ST : Scalar T) (a1 : nat) (a2 : nat) (a3 : list T), only_throws (fun cfg => mat_identity a1 a2 a3).
Proof. intros. unfold mat_identity. ot. Qed.
#[local] Hint Resolve ot_mat_identity : ot.
Lemma ot_mat_IDENTITY : forall (T : Type) (ST : Scalar T) (a1 : nat), only_throws (fun cfg => mat_IDENTITY a1).
Proof. intros. unfold mat_IDENTITY. ot. Qed.
#[local] Hint Resolve ot_mat_IDENTITY : ot.
Lemma ot_mat_ZERO : forall (T : Type) (ST : Scalar T) (a1 : nat) (a2 : nat), only_throws (fun cfg => mat_ZERO a1 a2).
Proof. intros. unfold mat_ZERO. ot. Qed.
#[local] Hint Resolve ot_mat_ZERO : ot.
Lemma ot_mat_assign_resize : forall (T : Type) (ST : Scalar T) (U : Type) (a1 : (U -> T)) (a2 : nat) (a3 : nat) (a4 : nat) (a5 : nat) (a6 : list T) (a7 : list U), only_throws (fun cfg => mat_assign_resize a1 a2 a3 a4 a5 a6 a7).
Proof. intros. unfold mat_assign_resize. ot. Qed.
#[local] Hint Resolve ot_mat_assign_resize : ot.
Lemma ot_mat_assign_2d : forall (T : Type) (a1 : nat) (a2 : nat) (a3 : list T) (a4 : list T), only_throws (fun cfg => mat_assign_2d a1 a2 a3 a4).
Proof. intros. unfold mat_assign_2d. ot. Qed.
#[local] Hint Resolve ot_mat_assign_2d : ot.
Lemma ot_mat_set : forall (T : Type) (a1 : nat) (a2 : nat) (a3 : list T) (a4 : list T) (a5 : bool), only_throws (fun cfg => mat_set a1 a2 a3 a4 a5).
Proof. intros. unfold mat_set. ot. Qed.
#[local] Hint Resolve ot_mat_set : ot.
Lemma ot_mat_assign_ptr : forall (T : Type) (a1 : nat) (a2 : nat) (a3 : list T) (a4 : list T), only_throws (fun cfg => mat_assign_ptr a1 a2 a3 a4).
Proof. intros. unfold mat_assign_ptr. ot. Qed.
#[local] Hint Resolve ot_mat_assign_ptr : ot.
Lemma ot_mat_assign_vector : forall (T : Type) (a1 : nat) (a2 : nat) (a3 : list T) (a4 : list T), only_throws (fun cfg => mat_assign_vector a1 a2 a3 a4).
Proof. intros. unfold mat_assign_vector. ot. Qed.
#[local] Hint Resolve ot_mat_assign_vector : ot.
Lemma ot_mat_equals_by : forall (T : Type) (a1 : (T -> T -> bool)) (a2 : nat) (a3 : nat) (a4 : list T) (a5 : list T), only_throws (fun cfg => mat_equals_by a1 a2 a3 a4 a5).
Proof. intros. unfold mat_equals_by. ot. Qed.
#[local] Hint Resolve ot_mat_equals_by : ot.
Lemma ot_mat_equals : forall (T : Type) (ST : Scalar T) (a1 : nat) (a2 : nat) (a3 : list T) (a4 : list T) (a5 : T), only_throws (fun cfg => mat_equals a1 a2 a3 a4 a5).
Proof. intros. unfold mat_equals. ot. Qed.
#[local] Hint Resolve ot_mat_equals : ot.
Lemma ot_mat_mul_piecewise : forall (T : Type) (ST : Scalar T) (a1 : nat) (a2 : nat) (a3 : list T) (a4 : arg T), only_throws (fun cfg => mat_mul_piecewise a1 a2 a3 a4).
Proof. intros. unfold mat_mul_piecewise. ot. Qed.
#[local] Hint Resolve ot_mat_mul_piecewise : ot.
Lemma ot_mat_multiply : forall (T : Type) (ST : Scalar T) (a1 : nat) (a2 : nat) (a3 : nat) (a4 : list T) (a5 : arg T) (a6 : arg T), only_throws (fun cfg => mat_multiply a1 a2 a3 a4 a5 a6).
Proof. intros. unfold mat_multiply. ot. Qed.
#[local] Hint Resolve ot_mat_multiply : ot.
Lemma ot_mat_mul : forall (T : Type) (ST : Scalar T) (a1 : nat) (a2 : nat) (a3 : nat) (a4 : list T) (a5 : list T), only_throws (fun cfg => mat_mul a1 a2 a3 a4 a5).
Proof. intros. unfold mat_mul. ot. Qed.
#[local] Hint Resolve ot_mat_mul : ot.
Lemma ot_mat_mul_assign : forall (T : Type) (ST : Scalar T) (a1 : nat) (a2 : list T) (a3 : arg T), only_throws (fun cfg => mat_mul_assign a1 a2 a3).
Proof. intros. unfold mat_mul_assign. ot. Qed.
#[local] Hint Resolve ot_mat_mul_assign : ot.
Lemma ot_mat_map_s : forall (T : Type) (ST : Scalar T) (a1 : nat) (a2 : nat) (a3 : (T -> res T)) (a4 : list T), only_throws (fun cfg => mat_map_s a1 a2 a3 a4).
Proof. intros. unfold mat_map_s. ot. Qed.
#[local] Hint Resolve ot_mat_map_s : ot.
Lemma ot_mat_div_s : forall (T : Type) (ST : Scalar T) (a1 : nat) (a2 : nat) (a3 : list T) (a4 : T), only_throws (fun cfg => mat_div_s a1 a2 a3 a4).
Proof. intros. unfold mat_div_s. ot. Qed.
#[local] Hint Resolve ot_mat_div_s : ot.
Lemma ot_mat_mul_s : forall (T : Type) (ST : Scalar T) (a1 : nat) (a2 : nat) (a3 : list T) (a4 : T), only_throws (fun cfg => mat_mul_s a1 a2 a3 a4).
Proof. intros. unfold mat_mul_s. ot. Qed.
#[local] Hint Resolve ot_mat_mul_s : ot.
Lemma ot_mat_map_assign_s : forall (T : Type) (a1 : nat) (a2 : nat) (a3 : (T -> res T)) (a4 : list T), only_throws (fun cfg => mat_map_assign_s a1 a2 a3 a4).
Proof. intros. unfold mat_map_assign_s. ot. Qed.
#[local] Hint Resolve ot_mat_map_assign_s : ot.
Lemma ot_mat_div_assign_s : forall (T : Type) (ST : Scalar T) (a1 : nat) (a2 : nat) (a3 : list T) (a4 : T), only_throws (fun cfg => mat_div_assign_s a1 a2 a3 a4).
Proof. intros. unfold mat_div_assign_s. ot. Qed.
#[local] Hint Resolve ot_mat_div_assign_s : ot.
Lemma ot_mat_mul_assign_s : forall (T : Type) (ST : Scalar T) (a1 : nat) (a2 : nat) (a3 : list T) (a4 : T), only_throws (fun cfg => mat_mul_assign_s a1 a2 a3 a4).
Proof. intros. unfold mat_mul_assign_s. ot. Qed.
#[local] Hint Resolve ot_mat_mul_assign_s : ot.
Lemma ot_mat_mul_vec : forall (T : Type) (ST : Scalar T) (a1 : nat) (a2 : nat) (a3 : list T) (a4 : list T), only_throws (fun cfg => mat_mul_vec a1 a2 a3 a4).
Proof. intros. unfold mat_mul_vec. ot. Qed.
#[local] Hint Resolve ot_mat_mul_vec : ot.
Lemma ot_mat_mul_hom : forall (T : Type) (ST : Scalar T) (a1 : nat) (a2 : nat) (a3 : nat) (a4 : list T) (a5 : list T), only_throws (fun cfg => mat_mul_hom a1 a2 a3 a4 a5).
Proof. intros. unfold mat_mul_hom. ot. Qed.
#[local] Hint Resolve ot_mat_mul_hom : ot.
Lemma ot_mat_negate : forall (T : Type) (ST : Scalar T) (a1 : nat) (a2 : nat) (a3 : list T), only_throws (fun cfg => mat_negate a1 a2 a3).
Proof. intros. unfold mat_negate. ot. Qed.
#[local] Hint Resolve ot_mat_negate : ot.
Lemma ot_mat_tensor : forall (T : Type) (ST : Scalar T) (a1 : nat) (a2 : nat) (a3 : list T) (a4 : list T) (a5 : list T), only_throws (fun cfg => mat_tensor a1 a2 a3 a4 a5).
Proof. intros. unfold mat_tensor. ot. Qed.
#[local] Hint Resolve ot_mat_tensor : ot.
Lemma ot_mat_tensor34 : forall (T : Type) (ST : Scalar T) (a1 : list T) (a2 : list T) (a3 : list T), only_throws (fun cfg => mat_tensor34 a1 a2 a3).
Proof. intros. unfold mat_tensor34. ot. Qed.
#[local] Hint Resolve ot_mat_tensor34 : ot.
Lemma ot_mat_transpose_to : forall (T : Type) (a1 : nat) (a2 : nat) (a3 : list T) (a4 : list T), only_throws (fun cfg => mat_transpose_to a1 a2 a3 a4).
Proof. intros. unfold mat_transpose_to. ot. Qed.
#[local] Hint Resolve ot_mat_transpose_to : ot.
Lemma ot_mat_transpose : forall (T : Type) (ST : Scalar T) (a1 : nat) (a2 : nat) (a3 : list T), only_throws (fun cfg => mat_transpose a1 a2 a3).
Proof. intros. unfold mat_transpose. ot. Qed.
#[local] Hint Resolve ot_mat_transpose : ot.
Lemma ot_mat_sym_cov : forall (T : Type) (ST : Scalar T) (a1 : nat) (a2 : nat) (a3 : list T) (a4 : list T), only_throws (fun cfg => mat_sym_cov a1 a2 a3 a4).
Proof. intros. unfold mat_sym_cov. ot. Qed.
#[local] Hint Resolve ot_mat_sym_cov : ot.
Lemma ot_mat_get_column_into : forall (T : Type) (a1 : nat) (a2 : nat) (a3 : list T) (a4 : nat) (a5 : list T), only_throws (fun cfg => mat_get_column_into a1 a2 a3 a4 a5).
Proof. intros. unfold mat_get_column_into. ot. Qed.
#[local] Hint Resolve ot_mat_get_column_into : ot.
Lemma ot_mat_get_column : forall (T : Type) (ST : Scalar T) (a1 : nat) (a2 : nat) (a3 : list T) (a4 : nat), only_throws (fun cfg => mat_get_column a1 a2 a3 a4).
Proof. intros. unfold mat_get_column. ot. Qed.
#[local] Hint Resolve ot_mat_get_column : ot.
Lemma ot_mat_set_column : forall (T : Type) (a1 : nat) (a2 : nat) (a3 : list T) (a4 : nat) (a5 : list T), only_throws (fun cfg => mat_set_column a1 a2 a3 a4 a5).
Proof. intros. unfold mat_set_column. ot. Qed.
#[local] Hint Resolve ot_mat_set_column : ot.
Lemma ot_mat_get_row_into : forall (T : Type) (a1 : nat) (a2 : nat) (a3 : list T) (a4 : nat) (a5 : list T), only_throws (fun cfg => mat_get_row_into a1 a2 a3 a4 a5).
Proof. intros. unfold mat_get_row_into. ot. Qed.
#[local] Hint Resolve ot_mat_get_row_into : ot.
Lemma ot_mat_get_row : forall (T : Type) (ST : Scalar T) (a1 : nat) (a2 : nat) (a3 : list T) (a4 : nat), only_throws (fun cfg => mat_get_row a1 a2 a3 a4).
Proof. intros. unfold mat_get_row. ot. Qed.
#[local] Hint Resolve ot_mat_get_row : ot.
Lemma ot_mat_set_row : forall (T : Type) (a1 : nat) (a2 : nat) (a3 : list T) (a4 : nat) (a5 : list T), only_throws (fun cfg => mat_set_row a1 a2 a3 a4 a5).
Proof. intros. unfold mat_set_row. ot. Qed.
#[local] Hint Resolve ot_mat_set_row : ot.
Lemma ot_mat_get_sub : forall (T : Type) (a1 : nat) (a2 : nat) (a3 : nat) (a4 : nat) (a5 : list T) (a6 : list T) (a7 : nat) (a8 : nat), only_throws (fun cfg => mat_get_sub a1 a2 a3 a4 a5 a6 a7 a8).
Proof. intros. unfold mat_get_sub. ot. Qed.
#[local] Hint Resolve ot_mat_get_sub : ot.
Lemma ot_mat_sub_matrix : forall (T : Type) (ST : Scalar T) (a1 : nat) (a2 : nat) (a3 : nat) (a4 : nat) (a5 : list T) (a6 : nat) (a7 : nat), only_throws (fun cfg => mat_sub_matrix a1 a2 a3 a4 a5 a6 a7).
Proof. intros. unfold mat_sub_matrix. ot. Qed.
#[local] Hint Resolve ot_mat_sub_matrix : ot.
Lemma ot_mat_set_sub : forall (T : Type) (a1 : nat) (a2 : nat) (a3 : nat) (a4 : nat) (a5 : list T) (a6 : list T) (a7 : nat) (a8 : nat), only_throws (fun cfg => mat_set_sub a1 a2 a3 a4 a5 a6 a7 a8).
Proof. intros. unfold mat_set_sub. ot. Qed.
#[local] Hint Resolve ot_mat_set_sub : ot.
Lemma ot_mat_direct_sum : forall (T : Type) (ST : Scalar T) (a1 : nat) (a2 : nat) (a3 : nat) (a4 : nat) (a5 : list T) (a6 : list T) (a7 : list T), only_throws (fun cfg => mat_direct_sum a1 a2 a3 a4 a5 a6 a7).
Proof. intros. unfold mat_direct_sum. ot. Qed.
#[local] Hint Resolve ot_mat_direct_sum : ot.
Lemma ot_mat_khatri_rao : forall (T : Type) (ST : Scalar T) (a1 : nat) (a2 : nat) (a3 : nat) (a4 : list T) (a5 : list T) (a6 : list T), only_throws (fun cfg => mat_khatri_rao a1 a2 a3 a4 a5 a6).
Proof. intros. unfold mat_khatri_rao. ot. Qed.
#[local] Hint Resolve ot_mat_khatri_rao : ot.
Lemma ot_mat_kronecker : forall (T : Type) (ST : Scalar T) (a1 : nat) (a2 : nat) (a3 : nat) (a4 : nat) (a5 : list T) (a6 : list T) (a7 : list T), only_throws (fun cfg => mat_kronecker a1 a2 a3 a4 a5 a6 a7).
Proof. intros. unfold mat_kronecker. ot. Qed.
#[local] Hint Resolve ot_mat_kronecker : ot.
Lemma ot_mat_diag : forall (T : Type) (ST : Scalar T) (a1 : nat) (a2 : list T) (a3 : list T), only_throws (fun cfg => mat_diag a1 a2 a3).
Proof. intros. unfold mat_diag. ot. Qed.
#[local] Hint Resolve ot_mat_diag : ot.
Lemma ot_mat_columnwise_sum : forall (T : Type) (ST : Scalar T) (a1 : nat) (a2 : nat) (a3 : list T) (a4 : list T), only_throws (fun cfg => mat_columnwise_sum a1 a2 a3 a4).
Proof. intros. unfold mat_columnwise_sum. ot. Qed.
#[local] Hint Resolve ot_mat_columnwise_sum : ot.
Lemma ot_mat_sum_rows : forall (T : Type) (ST : Scalar T) (a1 : nat) (a2 : nat) (a3 : list T) (a4 : list T), only_throws (fun cfg => mat_sum_rows a1 a2 a3 a4).
Proof. intros. unfold mat_sum_rows. ot. Qed.
#[local] Hint Resolve ot_mat_sum_rows : ot.
Lemma ot_mat_sum_columns : forall (T : Type) (ST : Scalar T) (a1 : nat) (a2 : nat) (a3 : list T) (a4 : list T), only_throws (fun cfg => mat_sum_columns a1 a2 a3 a4).
Proof. intros. unfold mat_sum_columns. ot. Qed.
#[local] Hint Resolve ot_mat_sum_columns : ot.
Lemma ot_mat_set_random : forall (T : Type) (ST : Scalar T) (a1 : (Z -> nat -> Z)) (a2 : Z) (a3 : (Z -> T)) (a4 : nat) (a5 : nat) (a6 : list T) (a7 : Z) (a8 : rng), only_throws (fun cfg => mat_set_random a1 a2 a3 a4 a5 a6 a7 a8).
Proof. intros. unfold mat_set_random. ot. Qed.
#[local] Hint Resolve ot_mat_set_random : ot.
Lemma ot_mat_convolve : forall (T : Type) (ST : Scalar T) (a1 : nat) (a2 : nat) (a3 : nat) (a4 : nat) (a5 : list T) (a6 : list T), only_throws (fun cfg => mat_convolve a1 a2 a3 a4 a5 a6).
Proof. intros. unfold mat_convolve. ot. Qed.
#[local] Hint Resolve ot_mat_convolve : ot.
Lemma ot_mat_det2 : forall (T : Type) (ST : Scalar T) (a1 : list T), only_throws (fun cfg => mat_det2 a1).
Proof. intros. unfold mat_det2. ot. Qed.
#[local] Hint Resolve ot_mat_det2 : ot.
Lemma ot_mat_det3 : forall (T : Type) (ST : Scalar T) (a1 : list T), only_throws (fun cfg => mat_det3 a1).
Proof. intros. unfold mat_det3. ot. Qed.
#[local] Hint Resolve ot_mat_det3 : ot.
Lemma ot_mat_det4 : forall (T : Type) (ST : Scalar T) (a1 : list T), only_throws (fun cfg => mat_det4 a1).
Proof. intros. unfold mat_det4. ot. Qed.
#[local] Hint Resolve ot_mat_det4 : ot.
Lemma ot_mat_det : forall (T : Type) (ST : Scalar T) (a1 : nat) (a2 : list T), only_throws (fun cfg => mat_det a1 a2).
Proof. intros. unfold mat_det. ot. Qed.
#[local] Hint Resolve ot_mat_det : ot.
Lemma ot_mat_get_minor : forall (T : Type) (ST : Scalar T) (a1 : nat) (a2 : list T) (a3 : list T) (a4 : nat) (a5 : nat), only_throws (fun cfg => mat_get_minor a1 a2 a3 a4 a5).
Proof. intros. unfold mat_get_minor. ot. Qed.
#[local] Hint Resolve ot_mat_get_minor : ot.
Lemma ot_mat_get_cofactors : forall (T : Type) (ST : Scalar T) (a1 : nat) (a2 : arg T) (a3 : list T), only_throws (fun cfg => mat_get_cofactors a1 a2 a3).
Proof. intros. unfold mat_get_cofactors. ot. Qed.
#[local] Hint Resolve ot_mat_get_cofactors : ot.
Lemma ot_mat_get_adjugate : forall (T : Type) (ST : Scalar T) (a1 : nat) (a2 : arg T) (a3 : list T), only_throws (fun cfg => mat_get_adjugate a1 a2 a3).
Proof. intros. unfold mat_get_adjugate. ot. Qed.
#[local] Hint Resolve ot_mat_get_adjugate : ot.
Lemma ot_mat_inverse2 : forall (T : Type) (ST : Scalar T) (a1 : arg T) (a2 : list T) (a3 : T), only_throws (fun cfg => mat_inverse2 a1 a2 a3).
Proof. intros. unfold mat_inverse2. ot. Qed.
#[local] Hint Resolve ot_mat_inverse2 : ot.
Lemma ot_mat_cof3 : forall (T : Type) (ST : Scalar T) (a1 : arg T) (a2 : list T) (a3 : nat) (a4 : nat) (a5 : nat) (a6 : nat) (a7 : nat) (a8 : nat) (a9 : nat) (a10 : nat) (a11 : nat) (a12 : nat), only_throws (fun cfg => mat_cof3 a1 a2 a3 a4 a5 a6 a7 a8 a9 a10 a11 a12).
Proof. intros. unfold mat_cof3. ot. Qed.
#[local] Hint Resolve ot_mat_cof3 : ot.
Lemma ot_mat_inverse3 : forall (T : Type) (ST : Scalar T) (a1 : arg T) (a2 : list T) (a3 : T), only_throws (fun cfg => mat_inverse3 a1 a2 a3).
Proof. intros. unfold mat_inverse3. ot. Qed.
#[local] Hint Resolve ot_mat_inverse3 : ot.
Lemma ot_mat_inverse : forall (T : Type) (ST : Scalar T) (a1 : nat) (a2 : list T) (a3 : list T) (a4 : T), only_throws (fun cfg => mat_inverse a1 a2 a3 a4).
Proof. intros. unfold mat_inverse. ot. Qed.
#[local] Hint Resolve ot_mat_inverse : ot.
Lemma ot_mat_is_pd3 : forall (T : Type) (ST : Scalar T) (a1 : list T) (a2 : T), only_throws (fun cfg => mat_is_pd3 a1 a2).
Proof. intros. unfold mat_is_pd3. ot. Qed.
#[local] Hint Resolve ot_mat_is_pd3 : ot.
Lemma ot_util_create_translation : forall (T : Type) (ST : Scalar T) (a1 : list T), only_throws (fun cfg => util_create_translation a1).
Proof. intros. unfold util_create_translation. ot. Qed.
#[local] Hint Resolve ot_util_create_translation : ot.
Lemma ot_util_apply_translation : forall (T : Type) (ST : Scalar T) (a1 : list T) (a2 : T) (a3 : T) (a4 : T), only_throws (fun cfg => util_apply_translation a1 a2 a3 a4).
Proof. intros. unfold util_apply_translation. ot. Qed.
#[local] Hint Resolve ot_util_apply_translation : ot.
Lemma ot_util_create_rotation : forall (T : Type) (ST : Scalar T) (TT : Trig T) (a1 : T) (a2 : list T), only_throws (fun cfg => util_create_rotation a1 a2).
Proof. intros. unfold util_create_rotation. ot. Qed.
#[local] Hint Resolve ot_util_create_rotation : ot.
Lemma ot_util_apply_rotation : forall (T : Type) (ST : Scalar T) (TT : Trig T) (a1 : list T) (a2 : T) (a3 : T) (a4 : T) (a5 : T), only_throws (fun cfg => util_apply_rotation a1 a2 a3 a4 a5).
Proof. intros. unfold util_apply_rotation. ot. Qed.
#[local] Hint Resolve ot_util_apply_rotation : ot.
Lemma ot_util_create_scaling : forall (T : Type) (ST : Scalar T) (a1 : list T), only_throws (fun cfg => util_create_scaling a1).
Proof. intros. unfold util_create_scaling. ot. Qed.
#[local] Hint Resolve ot_util_create_scaling : ot.
Lemma ot_util_create_scaling_s : forall (T : Type) (ST : Scalar T) (a1 : T), only_throws (fun cfg => util_create_scaling_s a1).
Proof. intros. unfold util_create_scaling_s. ot. Qed.
#[local] Hint Resolve ot_util_create_scaling_s : ot.
Lemma ot_fun_eq_inv_rows : forall (T : Type) (ST : Scalar T) (a1 : nat) (a2 : nat) (a3 : list T) (a4 : list T), only_throws (fun cfg => fun_eq_inv_rows a1 a2 a3 a4).
Proof. intros. unfold fun_eq_inv_rows. ot. Qed.
#[local] Hint Resolve ot_fun_eq_inv_rows : ot.
Lemma ot_fun_eq_inv_rows_tol : forall (T : Type) (ST : Scalar T) (a1 : nat) (a2 : nat) (a3 : list T) (a4 : list T) (a5 : T), only_throws (fun cfg => fun_eq_inv_rows_tol a1 a2 a3 a4 a5).
Proof. intros. unfold fun_eq_inv_rows_tol. ot. Qed.
#[local] Hint Resolve ot_fun_eq_inv_rows_tol : ot.
Lemma ot_fun_eq_inv_cols : forall (T : Type) (ST : Scalar T) (a1 : nat) (a2 : nat) (a3 : list T) (a4 : list T), only_throws (fun cfg => fun_eq_inv_cols a1 a2 a3 a4).
Proof. intros. unfold fun_eq_inv_cols. ot. Qed.
#[local] Hint Resolve ot_fun_eq_inv_cols : ot.
Lemma ot_fun_eq_inv_cols_tol : forall (T : Type) (ST : Scalar T) (a1 : nat) (a2 : nat) (a3 : list T) (a4 : list T) (a5 : T), only_throws (fun cfg => fun_eq_inv_cols_tol a1 a2 a3 a4 a5).
Proof. intros. unfold fun_eq_inv_cols_tol. ot. Qed.
#[local] Hint Resolve ot_fun_eq_inv_cols_tol : ot.
Lemma ot_traits_r : forall (T : Type) (a1 : nat) (a2 : nat) (a3 : list T) (a4 : nat) (a5 : nat), only_throws (fun cfg => traits_r a1 a2 a3 a4 a5).
Proof. intros. unfold traits_r. ot. Qed.
#[local] Hint Resolve ot_traits_r : ot.
Lemma ot_traits_w : forall (T : Type) (a1 : nat) (a2 : nat) (a3 : list T) (a4 : nat) (a5 : nat) (a6 : T), only_throws (fun cfg => traits_w a1 a2 a3 a4 a5 a6).
Proof. intros. unfold traits_w. ot. Qed.
#[local] Hint Resolve ot_traits_w : ot.
Lemma ot_q_of_vec_w : forall (T : Type) (ST : Scalar T) (a1 : list T) (a2 : T), only_throws (fun cfg => q_of_vec_w a1 a2).
Proof. intros. unfold q_of_vec_w. ot. Qed.
#[local] Hint Resolve ot_q_of_vec_w : ot.
Lemma ot_q_of_vec : forall (T : Type) (ST : Scalar T) (a1 : list T), only_throws (fun cfg => q_of_vec a1).
Proof. intros. unfold q_of_vec. ot. Qed.
#[local] Hint Resolve ot_q_of_vec : ot.
Lemma ot_q_get_rotation_matrix_into : forall (T : Type) (ST : Scalar T) (a1 : nat) (a2 : list T) (a3 : list T), only_throws (fun cfg => q_get_rotation_matrix_into a1 a2 a3).
Proof. intros. unfold q_get_rotation_matrix_into. ot. Qed.
#[local] Hint Resolve ot_q_get_rotation_matrix_into : ot.
Lemma ot_q_get_rotation_matrix : forall (T : Type) (ST : Scalar T) (a1 : list T), only_throws (fun cfg => q_get_rotation_matrix a1).
Proof. intros. unfold q_get_rotation_matrix. ot. Qed.
#[local] Hint Resolve ot_q_get_rotation_matrix : ot.
Lemma ot_q_set_matrix : forall (T : Type) (ST : Scalar T) (LT : Lit T) (a1 : nat) (a2 : list T) (a3 : list T), only_throws (fun cfg => q_set_matrix a1 a2 a3).
Proof. intros. unfold q_set_matrix. ot. Qed.
#[local] Hint Resolve ot_q_set_matrix : ot.
Lemma ot_box_ctor_center : forall (T : Type) (ST : Scalar T) (a1 : T) (a2 : T) (a3 : T) (a4 : T), only_throws (fun cfg => box_ctor_center a1 a2 a3 a4).
Proof. intros. unfold box_ctor_center. ot. Qed.
#[local] Hint Resolve ot_box_ctor_center : ot.
Lemma ot_box_set_center : forall (T : Type) (ST : Scalar T) (a1 : box T) (a2 : T) (a3 : T) (a4 : T) (a5 : T), only_throws (fun cfg => box_set_center a1 a2 a3 a4 a5).
Proof. intros. unfold box_set_center. ot. Qed.
#[local] Hint Resolve ot_box_set_center : ot.
Lemma ot_box_mul_assign : forall (T : Type) (ST : Scalar T) (a1 : box T) (a2 : T), only_throws (fun cfg => box_mul_assign a1 a2).
Proof. intros. unfold box_mul_assign. ot. Qed.
#[local] Hint Resolve ot_box_mul_assign : ot.
Lemma ot_box_div_assign : forall (T : Type) (ST : Scalar T) (a1 : box T) (a2 : T), only_throws (fun cfg => box_div_assign a1 a2).
Proof. intros. unfold box_div_assign. ot. Qed.
#[local] Hint Resolve ot_box_div_assign : ot.
Lemma ot_box_add_assign : forall (T : Type) (ST : Scalar T) (a1 : box T) (a2 : T), only_throws (fun cfg => box_add_assign a1 a2).
Proof. intros. unfold box_add_assign. ot. Qed.
#[local] Hint Resolve ot_box_add_assign : ot.
Lemma ot_box_sub_assign : forall (T : Type) (ST : Scalar T) (a1 : box T) (a2 : T), only_throws (fun cfg => box_sub_assign a1 a2).
Proof. intros. unfold box_sub_assign. ot. Qed.
#[local] Hint Resolve ot_box_sub_assign : ot.
Lemma ot_box_mul : forall (T : Type) (ST : Scalar T) (a1 : box T) (a2 : T), only_throws (fun cfg => box_mul a1 a2).
Proof. intros. unfold box_mul. ot. Qed.
#[local] Hint Resolve ot_box_mul : ot.
Lemma ot_box_div : forall (T : Type) (ST : Scalar T) (a1 : box T) (a2 : T), only_throws (fun cfg => box_div a1 a2).
Proof. intros. unfold box_div. ot. Qed.
#[local] Hint Resolve ot_box_div : ot.
Lemma ot_box_add : forall (T : Type) (ST : Scalar T) (a1 : box T) (a2 : T), only_throws (fun cfg => box_add a1 a2).
Proof. intros. unfold box_add. ot. Qed.
#[local] Hint Resolve ot_box_add : ot.
Lemma ot_box_sub : forall (T : Type) (ST : Scalar T) (a1 : box T) (a2 : T), only_throws (fun cfg => box_sub a1 a2).
Proof. intros. unfold box_sub. ot. Qed.
#[local] Hint Resolve ot_box_sub : ot.
Lemma ot_box_getCenter : forall (T : Type) (ST : Scalar T) (a1 : box T), only_throws (fun cfg => box_getCenter a1).
Proof. intros. unfold box_getCenter. ot. Qed.
#[local] Hint Resolve ot_box_getCenter : ot.
Lemma ot_box_getDimension : forall (T : Type) (ST : Scalar T) (a1 : box T), only_throws (fun cfg => box_getDimension a1).
Proof. intros. unfold box_getDimension. ot. Qed.
#[local] Hint Resolve ot_box_getDimension : ot.
Lemma ot_box_setEmpty : forall (T : Type) (ST : Scalar T) (a1 : box T), only_throws (fun cfg => box_setEmpty a1).
Proof. intros. unfold box_setEmpty. ot. Qed.
#[local] Hint Resolve ot_box_setEmpty : ot.
Lemma ot_fr_compute_matrix_into : forall (T : Type) (ST : Scalar T) (a1 : list T) (a2 : list T), only_throws (fun cfg => fr_compute_matrix_into a1 a2).
Proof. intros. unfold fr_compute_matrix_into. ot. Qed.
#[local] Hint Resolve ot_fr_compute_matrix_into : ot.
Lemma ot_fr_compute_matrix : forall (T : Type) (ST : Scalar T) (a1 : list T), only_throws (fun cfg => fr_compute_matrix a1).
Proof. intros. unfold fr_compute_matrix. ot. Qed.
#[local] Hint Resolve ot_fr_compute_matrix : ot.
Lemma ot_fr_compute_ortho_matrix_into : forall (T : Type) (ST : Scalar T) (a1 : list T) (a2 : list T), only_throws (fun cfg => fr_compute_ortho_matrix_into a1 a2).
Proof. intros. unfold fr_compute_ortho_matrix_into. ot. Qed.
#[local] Hint Resolve ot_fr_compute_ortho_matrix_into : ot.
Lemma ot_fr_compute_ortho_matrix : forall (T : Type) (ST : Scalar T) (a1 : list T), only_throws (fun cfg => fr_compute_ortho_matrix a1).
Proof. intros. unfold fr_compute_ortho_matrix. ot. Qed.
#[local] Hint Resolve ot_fr_compute_ortho_matrix : ot.
Lemma ot_fc_setup : forall (T : Type) (ST : Scalar T) (a1 : list T), only_throws (fun cfg => fc_setup a1).
Proof. intros. unfold fc_setup. ot. Qed.
#[local] Hint Resolve ot_fc_setup : ot.
Lemma ot_fc_setup_corners : forall (T : Type) (ST : Scalar T) (a1 : list T) (a2 : list T) (a3 : list T) (a4 : list T) (a5 : list T) (a6 : list T) (a7 : list T) (a8 : list T), only_throws (fun cfg => fc_setup_corners a1 a2 a3 a4 a5 a6 a7 a8).
Proof. intros. unfold fc_setup_corners. ot. Qed.
#[local] Hint Resolve ot_fc_setup_corners : ot.
Lemma ot_fc_test_plane : forall (T : Type) (ST : Scalar T) (a1 : list T) (a2 : list T) (a3 : list T), only_throws (fun cfg => fc_test_plane a1 a2 a3).
Proof. intros. unfold fc_test_plane. ot. Qed.
#[local] Hint Resolve ot_fc_test_plane : ot.
Lemma ot_fc_test_aabb : forall (T : Type) (ST : Scalar T) (a1 : @culler T) (a2 : list T) (a3 : list T) (a4 : list T), only_throws (fun cfg => fc_test_aabb a1 a2 a3 a4).
Proof. intros. unfold fc_test_aabb. ot. Qed.
#[local] Hint Resolve ot_fc_test_aabb : ot.
Lemma ot_ray_make : forall (T : Type) (ST : Scalar T) (a1 : list T) (a2 : list T), only_throws (fun cfg => ray_make a1 a2).
Proof. intros. unfold ray_make. ot. Qed.
#[local] Hint Resolve ot_ray_make : ot.
Lemma ot_ray_test_sphere : forall (T : Type) (ST : Scalar T) (a1 : @ray T) (a2 : list T) (a3 : T), only_throws (fun cfg => ray_test_sphere a1 a2 a3).
Proof. intros. unfold ray_test_sphere. ot. Qed.
#[local] Hint Resolve ot_ray_test_sphere : ot.
Lemma ot_qr_inner : forall (T : Type) (ST : Scalar T) (a1 : nat) (a2 : nat) (a3 : list T) (a4 : nat) (a5 : nat) (a6 : @qr_state T), only_throws (fun cfg => qr_inner a1 a2 a3 a4 a5 a6).
Proof. intros. unfold qr_inner. ot. Qed.
#[local] Hint Resolve ot_qr_inner : ot.
Lemma ot_qr_column : forall (T : Type) (ST : Scalar T) (a1 : nat) (a2 : nat) (a3 : list T) (a4 : nat) (a5 : @qr_state T), only_throws (fun cfg => qr_column a1 a2 a3 a4 a5).
Proof. intros. unfold qr_column. ot. Qed.
#[local] Hint Resolve ot_qr_column : ot.
Lemma ot_qr_decompose : forall (T : Type) (ST : Scalar T) (a1 : nat) (a2 : nat) (a3 : list T) (a4 : list T) (a5 : list T), only_throws (fun cfg => qr_decompose a1 a2 a3 a4 a5).
Proof. intros. unfold qr_decompose. ot. Qed.
#[local] Hint Resolve ot_qr_decompose : ot.
Lemma ot_mat_set_dct : forall (RL : RLim) (a1 : nat) (a2 : nat) (a3 : list R), only_throws (fun cfg => mat_set_dct a1 a2 a3).
Proof. intros. unfold mat_set_dct. ot. Qed.
#[local] Hint Resolve ot_mat_set_dct : ot.
Lemma ot_vec_write : forall (T : Type) (XT : Text T) (a1 : nat) (a2 : list T) (a3 : list ascii), only_throws (fun cfg => vec_write a1 a2 a3).
Proof. intros. unfold vec_write. ot. Qed.
#[local] Hint Resolve ot_vec_write : ot.
Lemma ot_vec_read : forall (T : Type) (ST : Scalar T) (XT : Text T) (a1 : nat) (a2 : list T) (a3 : istream), only_throws (fun cfg => vec_read a1 a2 a3).
Proof. intros. unfold vec_read. ot. Qed.
#[local] Hint Resolve ot_vec_read : ot.
Lemma ot_mat_write : forall (T : Type) (XT : Text T) (a1 : nat) (a2 : nat) (a3 : list T) (a4 : list ascii), only_throws (fun cfg => mat_write a1 a2 a3 a4).
Proof. intros. unfold mat_write. ot. Qed.
#[local] Hint Resolve ot_mat_write : ot.
Lemma ot_mat_read : forall (T : Type) (ST : Scalar T) (XT : Text T) (a1 : nat) (a2 : nat) (a3 : list T) (a4 : istream), only_throws (fun cfg => mat_read a1 a2 a3 a4).
Proof. intros. unfold mat_read. ot. Qed.
#[local] Hint Resolve ot_mat_read : ot.
(** C83: every modelled member or function of MVector that can check an index. *)
Theorem C83_checks_only_throw_vector :
  (forall (T : Type) (a1 : nat) (a2 : list T) (a3 : nat), only_throws (fun cfg => vat a1 a2 a3)) /\
  (forall (T : Type) (a1 : nat) (a2 : list T) (a3 : nat) (a4 : T), only_throws (fun cfg => vset a1 a2 a3 a4)) /\
  (forall (T : Type) (a1 : nat) (a2 : list T) (a3 : list T) (a4 : T), only_throws (fun cfg => vec_set_last a1 a2 a3 a4)) /\
  (forall (T : Type) (ST : Scalar T) (a1 : nat) (a2 : (T -> T -> res T)) (a3 : list T) (a4 : list T), only_throws (fun cfg => vec_zip a1 a2 a3 a4)) /\
  (forall (T : Type) (ST : Scalar T) (a1 : nat) (a2 : (T -> res T)) (a3 : list T), only_throws (fun cfg => vec_map a1 a2 a3)) /\
  (forall (T : Type) (ST : Scalar T) (a1 : nat) (a2 : list T) (a3 : list T), only_throws (fun cfg => vec_mul a1 a2 a3)) /\
  (forall (T : Type) (ST : Scalar T) (a1 : nat) (a2 : list T) (a3 : list T), only_throws (fun cfg => vec_div a1 a2 a3)) /\
  (forall (T : Type) (ST : Scalar T) (a1 : nat) (a2 : list T) (a3 : list T), only_throws (fun cfg => vec_add a1 a2 a3)) /\
  (forall (T : Type) (ST : Scalar T) (a1 : nat) (a2 : list T) (a3 : list T), only_throws (fun cfg => vec_sub a1 a2 a3)) /\
  (forall (T : Type) (ST : Scalar T) (a1 : nat) (a2 : list T) (a3 : T), only_throws (fun cfg => vec_mul_s a1 a2 a3)) /\
  (forall (T : Type) (ST : Scalar T) (a1 : nat) (a2 : list T) (a3 : T), only_throws (fun cfg => vec_div_s a1 a2 a3)) /\
  (forall (T : Type) (ST : Scalar T) (a1 : nat) (a2 : list T) (a3 : T), only_throws (fun cfg => vec_add_s a1 a2 a3)) /\
  (forall (T : Type) (ST : Scalar T) (a1 : nat) (a2 : list T) (a3 : T), only_throws (fun cfg => vec_sub_s a1 a2 a3)) /\
  (forall (T : Type) (a1 : nat) (a2 : (T -> T -> res T)) (a3 : list T) (a4 : arg T), only_throws (fun cfg => vec_zip_assign a1 a2 a3 a4)) /\
  (forall (T : Type) (a1 : nat) (a2 : (T -> res T)) (a3 : list T), only_throws (fun cfg => vec_map_assign a1 a2 a3)) /\
  (forall (T : Type) (ST : Scalar T) (a1 : nat) (a2 : list T) (a3 : arg T), only_throws (fun cfg => vec_mul_assign a1 a2 a3)) /\
  (forall (T : Type) (ST : Scalar T) (a1 : nat) (a2 : list T) (a3 : arg T), only_throws (fun cfg => vec_div_assign a1 a2 a3)) /\
  (forall (T : Type) (ST : Scalar T) (a1 : nat) (a2 : list T) (a3 : arg T), only_throws (fun cfg => vec_add_assign a1 a2 a3)) /\
  (forall (T : Type) (ST : Scalar T) (a1 : nat) (a2 : list T) (a3 : arg T), only_throws (fun cfg => vec_sub_assign a1 a2 a3)) /\
  (forall (T : Type) (ST : Scalar T) (a1 : nat) (a2 : list T) (a3 : T), only_throws (fun cfg => vec_mul_assign_s a1 a2 a3)) /\
  (forall (T : Type) (ST : Scalar T) (a1 : nat) (a2 : list T) (a3 : T), only_throws (fun cfg => vec_div_assign_s a1 a2 a3)) /\
  (forall (T : Type) (ST : Scalar T) (a1 : nat) (a2 : list T) (a3 : T), only_throws (fun cfg => vec_add_assign_s a1 a2 a3)) /\
  (forall (T : Type) (ST : Scalar T) (a1 : nat) (a2 : list T) (a3 : T), only_throws (fun cfg => vec_sub_assign_s a1 a2 a3)) /\
  (forall (T : Type) (ST : Scalar T) (a1 : nat) (a2 : list T) (a3 : list T), only_throws (fun cfg => vec_dot a1 a2 a3)) /\
  (forall (T : Type) (ST : Scalar T) (a1 : nat) (a2 : list T), only_throws (fun cfg => vec_normalize a1 a2)) /\
  (forall (T : Type) (ST : Scalar T) (a1 : nat) (a2 : list T), only_throws (fun cfg => vec_normalized a1 a2)) /\
  (forall (T : Type) (ST : Scalar T) (a1 : nat) (a2 : list T) (a3 : list T), only_throws (fun cfg => vec_squared_distance a1 a2 a3)) /\
  (forall (T : Type) (ST : Scalar T) (a1 : nat) (a2 : list T) (a3 : list T), only_throws (fun cfg => vec_distance a1 a2 a3)) /\
  (forall (T : Type) (ST : Scalar T) (a1 : nat) (a2 : list T), only_throws (fun cfg => vec_product a1 a2)) /\
  (forall (T : Type) (ST : Scalar T) (a1 : list T) (a2 : arg T) (a3 : arg T) (a4 : arg T), only_throws (fun cfg => vec_compute_normal_into a1 a2 a3 a4)) /\
  (forall (T : Type) (ST : Scalar T) (a1 : list T) (a2 : list T) (a3 : list T), only_throws (fun cfg => vec_compute_normal a1 a2 a3)) /\
  (forall (T : Type) (a1 : nat) (a2 : list T) (a3 : nat) (a4 : nat) (a5 : T), only_throws (fun cfg => vec_sub_vector_set a1 a2 a3 a4 a5)) /\
  (forall (T : Type) (ST : Scalar T) (a1 : nat) (a2 : list T) (a3 : list T), only_throws (fun cfg => vec_to_hom a1 a2 a3)) /\
  (forall (T : Type) (ST : Scalar T) (a1 : nat) (a2 : list T) (a3 : list T), only_throws (fun cfg => vec_from_hom a1 a2 a3)) /\
  (forall (T : Type) (ST : Scalar T) (a1 : list T) (a2 : list T) (a3 : list T), only_throws (fun cfg => vec_compute_plane a1 a2 a3)) /\
  (forall (T : Type) (ST : Scalar T) (a1 : list T) (a2 : list T), only_throws (fun cfg => vec_project_sphere a1 a2)) /\
  (forall (T : Type) (ST : Scalar T) (a1 : list T) (a2 : list T), only_throws (fun cfg => vec_dist_sphere a1 a2)) /\
  (forall (T : Type) (ST : Scalar T) (a1 : list T) (a2 : list T), only_throws (fun cfg => vec_dist_plane a1 a2)) /\
  (forall (T : Type) (ST : Scalar T) (a1 : list T) (a2 : list T), only_throws (fun cfg => vec_project_plane a1 a2)) /\
  (forall (T : Type) (ST : Scalar T) (a1 : nat) (a2 : list T) (a3 : list T) (a4 : T), only_throws (fun cfg => vec_equals a1 a2 a3 a4)) /\
  (forall (T : Type) (ST : Scalar T) (a1 : nat) (a2 : list T) (a3 : list T), only_throws (fun cfg => vec_equals_default a1 a2 a3)) /\
  (forall (T : Type) (ST : Scalar T) (a1 : nat) (a2 : list T) (a3 : list T), only_throws (fun cfg => vec_less a1 a2 a3)) /\
  (forall (T : Type) (a1 : nat) (a2 : list T) (a3 : T), only_throws (fun cfg => vec_assign_fill a1 a2 a3)) /\
  (forall (T : Type) (ST : Scalar T) (U : Type) (a1 : (T -> U)) (a2 : T) (a3 : nat) (a4 : list T) (a5 : list U) (a6 : T) (a7 : T), only_throws (fun cfg => vec_scale_to a1 a2 a3 a4 a5 a6 a7)) /\
  (forall (T : Type) (ST : Scalar T) (a1 : (Z -> nat -> Z)) (a2 : Z) (a3 : (Z -> T)) (a4 : nat) (a5 : list T) (a6 : Z) (a7 : rng), only_throws (fun cfg => vec_set_random a1 a2 a3 a4 a5 a6 a7)) /\
  (forall (T : Type) (ST : Scalar T) (TT : Trig T) (a1 : list T) (a2 : T) (a3 : list T), only_throws (fun cfg => vec_rotate a1 a2 a3)).
Proof. repeat split; intros; auto with ot nocore. Qed.
(** C83: every modelled member or function of MMatrix, MMatrix2 that can check an index. *)
Theorem C83_checks_only_throw_matrix :
  (forall (T : Type) (a1 : nat) (a2 : nat) (a3 : list T) (a4 : nat) (a5 : nat), only_throws (fun cfg => mat_at a1 a2 a3 a4 a5)) /\
  (forall (T : Type) (a1 : nat) (a2 : nat) (a3 : list T) (a4 : nat) (a5 : nat) (a6 : T), only_throws (fun cfg => mat_put a1 a2 a3 a4 a5 a6)) /\
  (forall (T : Type) (a1 : nat) (a2 : nat) (a3 : list T) (a4 : nat) (a5 : nat), only_throws (fun cfg => mat_sq_at a1 a2 a3 a4 a5)) /\
  (forall (T : Type) (a1 : nat) (a2 : nat) (a3 : list T) (a4 : nat) (a5 : nat) (a6 : T), only_throws (fun cfg => mat_sq_put a1 a2 a3 a4 a5 a6)) /\
  (forall (T : Type) (a1 : nat) (a2 : nat) (a3 : (nat -> nat -> list T -> res T)) (a4 : list T), only_throws (fun cfg => mat_fill_rc a1 a2 a3 a4)) /\
  (forall (T : Type) (a1 : nat) (a2 : nat) (a3 : list T) (a4 : T), only_throws (fun cfg => mat_fill a1 a2 a3 a4)) /\
  (forall (T : Type) (ST : Scalar T) (a1 : nat) (a2 : nat) (a3 : list T), only_throws (fun cfg => mat_zero a1 a2 a3)) /\
  (forall (T : Type) (ST : Scalar T) (a1 : nat) (a2 : nat), only_throws (fun cfg => mat_default a1 a2)) /\
  (forall (T : Type) (ST : Scalar T) (a1 : nat) (a2 : nat) (a3 : list T), only_throws (fun cfg => mat_identity a1 a2 a3)) /\
  (forall (T : Type) (ST : Scalar T) (a1 : nat), only_throws (fun cfg => mat_IDENTITY a1)) /\
  (forall (T : Type) (ST : Scalar T) (a1 : nat) (a2 : nat), only_throws (fun cfg => mat_ZERO a1 a2)) /\
  (forall (T : Type) (ST : Scalar T) (U : Type) (a1 : (U -> T)) (a2 : nat) (a3 : nat) (a4 : nat) (a5 : nat) (a6 : list T) (a7 : list U), only_throws (fun cfg => mat_assign_resize a1 a2 a3 a4 a5 a6 a7)) /\
  (forall (T : Type) (a1 : nat) (a2 : nat) (a3 : list T) (a4 : list T), only_throws (fun cfg => mat_assign_2d a1 a2 a3 a4)) /\
  (forall (T : Type) (a1 : nat) (a2 : nat) (a3 : list T) (a4 : list T) (a5 : bool), only_throws (fun cfg => mat_set a1 a2 a3 a4 a5)) /\
  (forall (T : Type) (a1 : nat) (a2 : nat) (a3 : list T) (a4 : list T), only_throws (fun cfg => mat_assign_ptr a1 a2 a3 a4)) /\
  (forall (T : Type) (a1 : nat) (a2 : nat) (a3 : list T) (a4 : list T), only_throws (fun cfg => mat_assign_vector a1 a2 a3 a4)) /\
  (forall (T : Type) (a1 : (T -> T -> bool)) (a2 : nat) (a3 : nat) (a4 : list T) (a5 : list T), only_throws (fun cfg => mat_equals_by a1 a2 a3 a4 a5)) /\
  (forall (T : Type) (ST : Scalar T) (a1 : nat) (a2 : nat) (a3 : list T) (a4 : list T) (a5 : T), only_throws (fun cfg => mat_equals a1 a2 a3 a4 a5)) /\
  (forall (T : Type) (ST : Scalar T) (a1 : nat) (a2 : nat) (a3 : list T) (a4 : arg T), only_throws (fun cfg => mat_mul_piecewise a1 a2 a3 a4)) /\
  (forall (T : Type) (ST : Scalar T) (a1 : nat) (a2 : nat) (a3 : nat) (a4 : list T) (a5 : arg T) (a6 : arg T), only_throws (fun cfg => mat_multiply a1 a2 a3 a4 a5 a6)) /\
  (forall (T : Type) (ST : Scalar T) (a1 : nat) (a2 : nat) (a3 : nat) (a4 : list T) (a5 : list T), only_throws (fun cfg => mat_mul a1 a2 a3 a4 a5)) /\
  (forall (T : Type) (ST : Scalar T) (a1 : nat) (a2 : list T) (a3 : arg T), only_throws (fun cfg => mat_mul_assign a1 a2 a3)) /\
  (forall (T : Type) (ST : Scalar T) (a1 : nat) (a2 : nat) (a3 : (T -> res T)) (a4 : list T), only_throws (fun cfg => mat_map_s a1 a2 a3 a4)) /\
  (forall (T : Type) (ST : Scalar T) (a1 : nat) (a2 : nat) (a3 : list T) (a4 : T), only_throws (fun cfg => mat_div_s a1 a2 a3 a4)) /\
  (forall (T : Type) (ST : Scalar T) (a1 : nat) (a2 : nat) (a3 : list T) (a4 : T), only_throws (fun cfg => mat_mul_s a1 a2 a3 a4)) /\
  (forall (T : Type) (a1 : nat) (a2 : nat) (a3 : (T -> res T)) (a4 : list T), only_throws (fun cfg => mat_map_assign_s a1 a2 a3 a4)) /\
  (forall (T : Type) (ST : Scalar T) (a1 : nat) (a2 : nat) (a3 : list T) (a4 : T), only_throws (fun cfg => mat_div_assign_s a1 a2 a3 a4)) /\
  (forall (T : Type) (ST : Scalar T) (a1 : nat) (a2 : nat) (a3 : list T) (a4 : T), only_throws (fun cfg => mat_mul_assign_s a1 a2 a3 a4)) /\
  (forall (T : Type) (ST : Scalar T) (a1 : nat) (a2 : nat) (a3 : list T) (a4 : list T), only_throws (fun cfg => mat_mul_vec a1 a2 a3 a4)) /\
  (forall (T : Type) (ST : Scalar T) (a1 : nat) (a2 : nat) (a3 : nat) (a4 : list T) (a5 : list T), only_throws (fun cfg => mat_mul_hom a1 a2 a3 a4 a5)) /\
  (forall (T : Type) (ST : Scalar T) (a1 : nat) (a2 : nat) (a3 : list T), only_throws (fun cfg => mat_negate a1 a2 a3)) /\
  (forall (T : Type) (ST : Scalar T) (a1 : nat) (a2 : nat) (a3 : list T) (a4 : list T) (a5 : list T), only_throws (fun cfg => mat_tensor a1 a2 a3 a4 a5)) /\
  (forall (T : Type) (ST : Scalar T) (a1 : list T) (a2 : list T) (a3 : list T), only_throws (fun cfg => mat_tensor34 a1 a2 a3)) /\
  (forall (T : Type) (a1 : nat) (a2 : nat) (a3 : list T) (a4 : list T), only_throws (fun cfg => mat_transpose_to a1 a2 a3 a4)) /\
  (forall (T : Type) (ST : Scalar T) (a1 : nat) (a2 : nat) (a3 : list T), only_throws (fun cfg => mat_transpose a1 a2 a3)) /\
  (forall (T : Type) (ST : Scalar T) (a1 : nat) (a2 : nat) (a3 : list T) (a4 : list T), only_throws (fun cfg => mat_sym_cov a1 a2 a3 a4)) /\
  (forall (T : Type) (a1 : nat) (a2 : nat) (a3 : list T) (a4 : nat) (a5 : list T), only_throws (fun cfg => mat_get_column_into a1 a2 a3 a4 a5)) /\
  (forall (T : Type) (ST : Scalar T) (a1 : nat) (a2 : nat) (a3 : list T) (a4 : nat), only_throws (fun cfg => mat_get_column a1 a2 a3 a4)) /\
  (forall (T : Type) (a1 : nat) (a2 : nat) (a3 : list T) (a4 : nat) (a5 : list T), only_throws (fun cfg => mat_set_column a1 a2 a3 a4 a5)) /\
  (forall (T : Type) (a1 : nat) (a2 : nat) (a3 : list T) (a4 : nat) (a5 : list T), only_throws (fun cfg => mat_get_row_into a1 a2 a3 a4 a5)) /\
  (forall (T : Type) (ST : Scalar T) (a1 : nat) (a2 : nat) (a3 : list T) (a4 : nat), only_throws (fun cfg => mat_get_row a1 a2 a3 a4)) /\
  (forall (T : Type) (a1 : nat) (a2 : nat) (a3 : list T) (a4 : nat) (a5 : list T), only_throws (fun cfg => mat_set_row a1 a2 a3 a4 a5)) /\
  (forall (T : Type) (a1 : nat) (a2 : nat) (a3 : nat) (a4 : nat) (a5 : list T) (a6 : list T) (a7 : nat) (a8 : nat), only_throws (fun cfg => mat_get_sub a1 a2 a3 a4 a5 a6 a7 a8)) /\
  (forall (T : Type) (ST : Scalar T) (a1 : nat) (a2 : nat) (a3 : nat) (a4 : nat) (a5 : list T) (a6 : nat) (a7 : nat), only_throws (fun cfg => mat_sub_matrix a1 a2 a3 a4 a5 a6 a7)) /\
  (forall (T : Type) (a1 : nat) (a2 : nat) (a3 : nat) (a4 : nat) (a5 : list T) (a6 : list T) (a7 : nat) (a8 : nat), only_throws (fun cfg => mat_set_sub a1 a2 a3 a4 a5 a6 a7 a8)) /\
  (forall (T : Type) (ST : Scalar T) (a1 : nat) (a2 : nat) (a3 : nat) (a4 : nat) (a5 : list T) (a6 : list T) (a7 : list T), only_throws (fun cfg => mat_direct_sum a1 a2 a3 a4 a5 a6 a7)) /\
  (forall (T : Type) (ST : Scalar T) (a1 : nat) (a2 : nat) (a3 : nat) (a4 : list T) (a5 : list T) (a6 : list T), only_throws (fun cfg => mat_khatri_rao a1 a2 a3 a4 a5 a6)) /\
  (forall (T : Type) (ST : Scalar T) (a1 : nat) (a2 : nat) (a3 : nat) (a4 : nat) (a5 : list T) (a6 : list T) (a7 : list T), only_throws (fun cfg => mat_kronecker a1 a2 a3 a4 a5 a6 a7)) /\
  (forall (T : Type) (ST : Scalar T) (a1 : nat) (a2 : list T) (a3 : list T), only_throws (fun cfg => mat_diag a1 a2 a3)) /\
  (forall (T : Type) (ST : Scalar T) (a1 : nat) (a2 : nat) (a3 : list T) (a4 : list T), only_throws (fun cfg => mat_columnwise_sum a1 a2 a3 a4)) /\
  (forall (T : Type) (ST : Scalar T) (a1 : nat) (a2 : nat) (a3 : list T) (a4 : list T), only_throws (fun cfg => mat_sum_rows a1 a2 a3 a4)) /\
  (forall (T : Type) (ST : Scalar T) (a1 : nat) (a2 : nat) (a3 : list T) (a4 : list T), only_throws (fun cfg => mat_sum_columns a1 a2 a3 a4)) /\
  (forall (T : Type) (ST : Scalar T) (a1 : (Z -> nat -> Z)) (a2 : Z) (a3 : (Z -> T)) (a4 : nat) (a5 : nat) (a6 : list T) (a7 : Z) (a8 : rng), only_throws (fun cfg => mat_set_random a1 a2 a3 a4 a5 a6 a7 a8)) /\
  (forall (T : Type) (ST : Scalar T) (a1 : nat) (a2 : nat) (a3 : nat) (a4 : nat) (a5 : list T) (a6 : list T), only_throws (fun cfg => mat_convolve a1 a2 a3 a4 a5 a6)) /\
  (forall (T : Type) (ST : Scalar T) (a1 : list T), only_throws (fun cfg => mat_det2 a1)) /\
  (forall (T : Type) (ST : Scalar T) (a1 : list T), only_throws (fun cfg => mat_det3 a1)) /\
  (forall (T : Type) (ST : Scalar T) (a1 : list T), only_throws (fun cfg => mat_det4 a1)) /\
  (forall (T : Type) (ST : Scalar T) (a1 : nat) (a2 : list T), only_throws (fun cfg => mat_det a1 a2)) /\
  (forall (T : Type) (ST : Scalar T) (a1 : nat) (a2 : list T) (a3 : list T) (a4 : nat) (a5 : nat), only_throws (fun cfg => mat_get_minor a1 a2 a3 a4 a5)) /\
  (forall (T : Type) (ST : Scalar T) (a1 : nat) (a2 : arg T) (a3 : list T), only_throws (fun cfg => mat_get_cofactors a1 a2 a3)) /\
  (forall (T : Type) (ST : Scalar T) (a1 : nat) (a2 : arg T) (a3 : list T), only_throws (fun cfg => mat_get_adjugate a1 a2 a3)) /\
  (forall (T : Type) (ST : Scalar T) (a1 : arg T) (a2 : list T) (a3 : T), only_throws (fun cfg => mat_inverse2 a1 a2 a3)) /\
  (forall (T : Type) (ST : Scalar T) (a1 : arg T) (a2 : list T) (a3 : nat) (a4 : nat) (a5 : nat) (a6 : nat) (a7 : nat) (a8 : nat) (a9 : nat) (a10 : nat) (a11 : nat) (a12 : nat), only_throws (fun cfg => mat_cof3 a1 a2 a3 a4 a5 a6 a7 a8 a9 a10 a11 a12)) /\
  (forall (T : Type) (ST : Scalar T) (a1 : arg T) (a2 : list T) (a3 : T), only_throws (fun cfg => mat_inverse3 a1 a2 a3)) /\
  (forall (T : Type) (ST : Scalar T) (a1 : nat) (a2 : list T) (a3 : list T) (a4 : T), only_throws (fun cfg => mat_inverse a1 a2 a3 a4)) /\
  (forall (T : Type) (ST : Scalar T) (a1 : list T) (a2 : T), only_throws (fun cfg => mat_is_pd3 a1 a2)) /\
  (forall (T : Type) (ST : Scalar T) (a1 : list T), only_throws (fun cfg => util_create_translation a1)) /\
  (forall (T : Type) (ST : Scalar T) (a1 : list T) (a2 : T) (a3 : T) (a4 : T), only_throws (fun cfg => util_apply_translation a1 a2 a3 a4)) /\
  (forall (T : Type) (ST : Scalar T) (TT : Trig T) (a1 : T) (a2 : list T), only_throws (fun cfg => util_create_rotation a1 a2)) /\
  (forall (T : Type) (ST : Scalar T) (TT : Trig T) (a1 : list T) (a2 : T) (a3 : T) (a4 : T) (a5 : T), only_throws (fun cfg => util_apply_rotation a1 a2 a3 a4 a5)) /\
  (forall (T : Type) (ST : Scalar T) (a1 : list T), only_throws (fun cfg => util_create_scaling a1)) /\
  (forall (T : Type) (ST : Scalar T) (a1 : T), only_throws (fun cfg => util_create_scaling_s a1)) /\
  (forall (T : Type) (ST : Scalar T) (a1 : nat) (a2 : nat) (a3 : list T) (a4 : list T), only_throws (fun cfg => fun_eq_inv_rows a1 a2 a3 a4)) /\
  (forall (T : Type) (ST : Scalar T) (a1 : nat) (a2 : nat) (a3 : list T) (a4 : list T) (a5 : T), only_throws (fun cfg => fun_eq_inv_rows_tol a1 a2 a3 a4 a5)) /\
  (forall (T : Type) (ST : Scalar T) (a1 : nat) (a2 : nat) (a3 : list T) (a4 : list T), only_throws (fun cfg => fun_eq_inv_cols a1 a2 a3 a4)) /\
  (forall (T : Type) (ST : Scalar T) (a1 : nat) (a2 : nat) (a3 : list T) (a4 : list T) (a5 : T), only_throws (fun cfg => fun_eq_inv_cols_tol a1 a2 a3 a4 a5)) /\
  (forall (T : Type) (a1 : nat) (a2 : nat) (a3 : list T) (a4 : nat) (a5 : nat), only_throws (fun cfg => traits_r a1 a2 a3 a4 a5)) /\
  (forall (T : Type) (a1 : nat) (a2 : nat) (a3 : list T) (a4 : nat) (a5 : nat) (a6 : T), only_throws (fun cfg => traits_w a1 a2 a3 a4 a5 a6)).
Proof. repeat split; intros; auto with ot nocore. Qed.
(** C83: every modelled member or function of MQuaternion, MAabb, MFrustum that can check an index. *)
Theorem C83_checks_only_throw_quaternion_box_frustum :
  (forall (T : Type) (ST : Scalar T) (a1 : list T) (a2 : T), only_throws (fun cfg => q_of_vec_w a1 a2)) /\
  (forall (T : Type) (ST : Scalar T) (a1 : list T), only_throws (fun cfg => q_of_vec a1)) /\
  (forall (T : Type) (ST : Scalar T) (a1 : nat) (a2 : list T) (a3 : list T), only_throws (fun cfg => q_get_rotation_matrix_into a1 a2 a3)) /\
  (forall (T : Type) (ST : Scalar T) (a1 : list T), only_throws (fun cfg => q_get_rotation_matrix a1)) /\
  (forall (T : Type) (ST : Scalar T) (LT : Lit T) (a1 : nat) (a2 : list T) (a3 : list T), only_throws (fun cfg => q_set_matrix a1 a2 a3)) /\
  (forall (T : Type) (ST : Scalar T) (a1 : T) (a2 : T) (a3 : T) (a4 : T), only_throws (fun cfg => box_ctor_center a1 a2 a3 a4)) /\
  (forall (T : Type) (ST : Scalar T) (a1 : box T) (a2 : T) (a3 : T) (a4 : T) (a5 : T), only_throws (fun cfg => box_set_center a1 a2 a3 a4 a5)) /\
  (forall (T : Type) (ST : Scalar T) (a1 : box T) (a2 : T), only_throws (fun cfg => box_mul_assign a1 a2)) /\
  (forall (T : Type) (ST : Scalar T) (a1 : box T) (a2 : T), only_throws (fun cfg => box_div_assign a1 a2)) /\
  (forall (T : Type) (ST : Scalar T) (a1 : box T) (a2 : T), only_throws (fun cfg => box_add_assign a1 a2)) /\
  (forall (T : Type) (ST : Scalar T) (a1 : box T) (a2 : T), only_throws (fun cfg => box_sub_assign a1 a2)) /\
  (forall (T : Type) (ST : Scalar T) (a1 : box T) (a2 : T), only_throws (fun cfg => box_mul a1 a2)) /\
  (forall (T : Type) (ST : Scalar T) (a1 : box T) (a2 : T), only_throws (fun cfg => box_div a1 a2)) /\
  (forall (T : Type) (ST : Scalar T) (a1 : box T) (a2 : T), only_throws (fun cfg => box_add a1 a2)) /\
  (forall (T : Type) (ST : Scalar T) (a1 : box T) (a2 : T), only_throws (fun cfg => box_sub a1 a2)) /\
  (forall (T : Type) (ST : Scalar T) (a1 : box T), only_throws (fun cfg => box_getCenter a1)) /\
  (forall (T : Type) (ST : Scalar T) (a1 : box T), only_throws (fun cfg => box_getDimension a1)) /\
  (forall (T : Type) (ST : Scalar T) (a1 : box T), only_throws (fun cfg => box_setEmpty a1)) /\
  (forall (T : Type) (ST : Scalar T) (a1 : list T) (a2 : list T), only_throws (fun cfg => fr_compute_matrix_into a1 a2)) /\
  (forall (T : Type) (ST : Scalar T) (a1 : list T), only_throws (fun cfg => fr_compute_matrix a1)) /\
  (forall (T : Type) (ST : Scalar T) (a1 : list T) (a2 : list T), only_throws (fun cfg => fr_compute_ortho_matrix_into a1 a2)) /\
  (forall (T : Type) (ST : Scalar T) (a1 : list T), only_throws (fun cfg => fr_compute_ortho_matrix a1)) /\
  (forall (T : Type) (ST : Scalar T) (a1 : list T), only_throws (fun cfg => fc_setup a1)) /\
  (forall (T : Type) (ST : Scalar T) (a1 : list T) (a2 : list T) (a3 : list T) (a4 : list T) (a5 : list T) (a6 : list T) (a7 : list T) (a8 : list T), only_throws (fun cfg => fc_setup_corners a1 a2 a3 a4 a5 a6 a7 a8)) /\
  (forall (T : Type) (ST : Scalar T) (a1 : list T) (a2 : list T) (a3 : list T), only_throws (fun cfg => fc_test_plane a1 a2 a3)) /\
  (forall (T : Type) (ST : Scalar T) (a1 : @culler T) (a2 : list T) (a3 : list T) (a4 : list T), only_throws (fun cfg => fc_test_aabb a1 a2 a3 a4)) /\
  (forall (T : Type) (ST : Scalar T) (a1 : list T) (a2 : list T), only_throws (fun cfg => ray_make a1 a2)) /\
  (forall (T : Type) (ST : Scalar T) (a1 : @ray T) (a2 : list T) (a3 : T), only_throws (fun cfg => ray_test_sphere a1 a2 a3)).
Proof. repeat split; intros; auto with ot nocore. Qed.
(** C83: every modelled member or function of MMisc, MNum, MIo that can check an index. *)
Theorem C83_checks_only_throw_misc_num_io :
  (forall (T : Type) (ST : Scalar T) (a1 : nat) (a2 : nat) (a3 : list T) (a4 : nat) (a5 : nat) (a6 : @qr_state T), only_throws (fun cfg => qr_inner a1 a2 a3 a4 a5 a6)) /\
  (forall (T : Type) (ST : Scalar T) (a1 : nat) (a2 : nat) (a3 : list T) (a4 : nat) (a5 : @qr_state T), only_throws (fun cfg => qr_column a1 a2 a3 a4 a5)) /\
  (forall (T : Type) (ST : Scalar T) (a1 : nat) (a2 : nat) (a3 : list T) (a4 : list T) (a5 : list T), only_throws (fun cfg => qr_decompose a1 a2 a3 a4 a5)) /\
  (forall (RL : RLim) (a1 : nat) (a2 : nat) (a3 : list R), only_throws (fun cfg => mat_set_dct a1 a2 a3)) /\
  (forall (T : Type) (XT : Text T) (a1 : nat) (a2 : list T) (a3 : list ascii), only_throws (fun cfg => vec_write a1 a2 a3)) /\
  (forall (T : Type) (ST : Scalar T) (XT : Text T) (a1 : nat) (a2 : list T) (a3 : istream), only_throws (fun cfg => vec_read a1 a2 a3)) /\
  (forall (T : Type) (XT : Text T) (a1 : nat) (a2 : nat) (a3 : list T) (a4 : list ascii), only_throws (fun cfg => mat_write a1 a2 a3 a4)) /\
  (forall (T : Type) (ST : Scalar T) (XT : Text T) (a1 : nat) (a2 : nat) (a3 : list T) (a4 : istream), only_throws (fun cfg => mat_read a1 a2 a3 a4)).
Proof. repeat split; intros; auto with ot nocore. Qed.
(** C83: what an unchecked out-of-range row does: it reads another cell while it
    stays inside the array, and is undefined behaviour beyond it. *)
Theorem C83_unchecked_out_of_range_row : forall (T : Type) (M N : nat) (m : list T) (r c : nat),
  0 < M -> length m = M * N -> M <= r ->
  mat_at (cfg := checked) M N m r c = Throw /\
  (c + r / M < N -> mat_at (cfg := unchecked) M N m r c = mat_at (cfg := checked) M N m (r mod M) (c + r / M) /\
                    exists x, mat_at (cfg := unchecked) M N m r c = Ok x) /\
  (N <= c + r / M -> mat_at (cfg := unchecked) M N m r c = UB).
Proof.
  intros T M N m r c HM HL Hr. pose proof (Nat.div_mod r M ltac:(lia)) as E. pose proof (Nat.mod_upper_bound r M ltac:(lia)) as U.
  set (q := r / M) in *. set (s := r mod M) in *. clearbody q s. unfold mat_at. cbn [safe checked unchecked]. rewrite !andb_false_r.
  split; [|split].
  - apply Nat.leb_le in Hr. rewrite Hr. reflexivity.
  - intros Hc. assert (I : c * M + r = (c + q) * M + s) by nia. assert (B : (c + q) * M + s < M * N) by nia. rewrite I.
    split.
    + destruct (Nat.leb_spec M s); [lia|]. destruct (Nat.leb_spec N (c + q)); [lia|]. reflexivity.
    + unfold rd. destruct (nth_error m _) as [x|] eqn:Ex; [exists x; reflexivity|]. apply nth_error_None in Ex. lia.
  - intros Hc. unfold rd. destruct (nth_error m _) as [x|] eqn:Ex; [|reflexivity].
    assert (nth_error m (c * M + r) <> None) as H by congruence. apply nth_error_Some in H. nia.
Qed.
Example C83_hypotheses_met :
  vat (cfg := checked) 3 [1; 2; 3] 5 = Throw /\ vat (cfg := unchecked) 3 [1; 2; 3] 5 = UB /\
  vat (cfg := checked) 3 [1; 2; 3] 2 = Ok 3 /\ vat (cfg := unchecked) 3 [1; 2; 3] 2 = Ok 3 /\
  mat_at (cfg := checked) 2 2 [1; 2; 3; 4] 2 0 = Throw /\ mat_at (cfg := unchecked) 2 2 [1; 2; 3; 4] 2 0 = Ok 3.
Proof. repeat split. Qed.
Print Assumptions C83_checks_only_throw_vector.
Print Assumptions C83_checks_only_throw_matrix.
Print Assumptions C83_checks_only_throw_quaternion_box_frustum.
Print Assumptions C83_checks_only_throw_misc_num_io.
Print Assumptions C83_unchecked_out_of_range_row.
