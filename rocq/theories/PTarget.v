(** Property C158: the out-parameter form of the projection matrices. *)
From Coq Require Import ZArith List Lia.
From Flocq Require Import IEEE754.Binary IEEE754.Bits.
From Verif Require Import Base Scalar InstF InstF32 LBase MVector MMatrix MFrustum MFloat MViewF PCullF.
Import ListNotations.

Lemma target_case {T : Type} (P : list T -> Prop) :
  (forall a0 a1 a2 a3 a4 a5 a6 a7 a8 a9 b0 b1 b2 b3 b4 b5, P [a0; a1; a2; a3; a4; a5; a6; a7; a8; a9; b0; b1; b2; b3; b4; b5]) ->
  forall m, length m = 16%nat -> P m.
Proof.
  intros H m E. do 16 (destruct m as [|? m]; [discriminate E|]). destruct m; [|discriminate E]. apply H.
Qed.
Lemma six_case {T : Type} (P : list T -> Prop) : (forall l r b t n f, P [l; r; b; t; n; f]) -> forall fr, length fr = 6%nat -> P fr.
Proof. intros H m E. do 6 (destruct m as [|? m]; [discriminate E|]). destruct m; [|discriminate E]. apply H. Qed.

(** C158: compute_matrix( M ) and compute_ortho_matrix( M ) leave in M exactly
    what compute_matrix() and compute_ortho_matrix() return, whatever M held, for
    every element type (and for float with its double quotients). *)
Theorem C158_out_parameter_overwritten :
  (forall (cfg : Cfg) (T : Type) (ST : Scalar T) (fr m : list T), length fr = 6%nat -> length m = 16%nat ->
     fr_compute_matrix_into fr m = fr_compute_matrix fr /\ fr_compute_ortho_matrix_into fr m = fr_compute_ortho_matrix fr) /\
  (forall (cfg : Cfg) (fr m : list f32), length fr = 6%nat -> length m = 16%nat ->
     frf_compute_matrix_into fr m = frf_compute_matrix fr /\ frf_compute_ortho_matrix_into fr m = frf_compute_ortho_matrix fr).
Proof.
  split.
  - intros cfg T ST fr m Hf. revert m. apply target_case. intros. revert fr Hf. apply six_case. intros.
    unfold fr_compute_matrix_into, fr_compute_matrix, fr_compute_ortho_matrix_into, fr_compute_ortho_matrix, mat_default, mat_identity, mat_fill, mat_put, mat_sq_put, fr_left, fr_right, fr_bottom, fr_top, fr_near, fr_far.
    destruct safe; split; reflexivity.
  - intros cfg fr m Hf. revert m. apply target_case. intros. revert fr Hf. apply six_case. intros.
    unfold frf_compute_matrix_into, frf_compute_matrix, frf_compute_ortho_matrix_into, frf_compute_ortho_matrix, mat_default, mat_identity, mat_fill, mat_put, mat_sq_put, fr_left, fr_right, fr_bottom, fr_top, fr_near, fr_far.
    destruct safe; split; reflexivity.
Qed.
Print Assumptions C158_out_parameter_overwritten.
(** A target full of fours ends up with the matrix of the camera (-1, 1, -1, 1,
    1, 4), here by its bit patterns. *)
Example C158_hypotheses_met : forall cfg : Cfg,
  let fr := [b32_opp f32_one; f32_one; b32_opp f32_one; f32_one; f32_one; f32_four] in
  (m <- frf_compute_matrix_into fr (repeat f32_four 16) ;; Ok (map bits_of_b32 m)) =
  Ok [1065353216; 0; 0; 0; 0; 1065353216; 0; 0; 0; 0; 3218429269; 3212836864; 0; 0; 3224021675; 0]%Z.
Proof. intros cfg fr. subst fr. destruct cfg as [[|]]; vm_compute; reflexivity. Qed.
