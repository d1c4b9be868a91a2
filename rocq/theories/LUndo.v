(** Real-number part of C226-C227: inverses of nearby matrices. *)
From Coq Require Import Reals Lra Lia List.
From Verif Require Import Spec Spec4 Spec11 Spec14 Spec17 LVectorR LSum LMat4 PFloat2 PQrF PMatrix6 PMoveF LEdit LEye.
Local Open Scope R_scope.
Local Notation frobR := Spec14.frobR.

Lemma inv_near (V X W Y : nat -> nat -> R) (c : R) :
  (forall i j, (i < 4)%nat -> (j < 4)%nat -> mmulR 4 X Y i j = idR i j) ->
  (forall i j, (i < 4)%nat -> (j < 4)%nat -> mmulR 4 W V i j = idR i j) ->
  frobR 4 (fun i j => V i j - X i j) <= c -> c * frobR 4 Y <= / 2 ->
  forall i j, (i < 4)%nat -> (j < 4)%nat -> Rabs (W i j - Y i j) <= 2 * c * (frobR 4 Y * frobR 4 Y).
Proof.
  intros HXY HWV HD Hc i j Hi Hj. set (D := fun i j => V i j - X i j) in *. set (y := frobR 4 Y) in *.
  assert (E : forall i j, (i < 4)%nat -> (j < 4)%nat -> Y i j - W i j = mmulR 4 W (mmulR 4 D Y) i j).
  { clear i j Hi Hj. intros i j Hi Hj.
    assert (E1 : mmulR 4 W (mmulR 4 D Y) i j = mmulR 4 (mmulR 4 W V) Y i j - mmulR 4 W (mmulR 4 X Y) i j) by (unfold mmulR, D; cbn [rsum]; ring).
    rewrite E1. unfold mmulR at 1. cbn [rsum]. rewrite !HWV by lia. unfold mmulR at 1. cbn [rsum]. rewrite !HXY by lia.
    unfold idR. destruct i as [|[|[|[|i]]]]; try lia; destruct j as [|[|[|[|j]]]]; try lia; cbn [Nat.eqb]; ring. }
  assert (y0 : 0 <= y) by apply frob_nonneg. assert (c0 : 0 <= c) by (pose proof (frob_nonneg D); lra).
  set (F := mmulR 4 W (mmulR 4 D Y)) in *.
  assert (FB : frobR 4 F <= frobR 4 W * (c * y)).
  { unfold F. eapply Rle_trans; [apply frob_mul|]. apply Rmult_le_compat_l; [apply frob_nonneg|]. eapply Rle_trans; [apply frob_mul|]. apply Rmult_le_compat_r; assumption. }
  assert (WB : frobR 4 W <= y + frobR 4 F).
  { pose proof (frob_tri W Y) as T. replace (frobR 4 (fun i j => W i j - Y i j)) with (frobR 4 F) in T; [exact T|].
    rewrite <- (frob_abs F), <- (frob_abs (fun i j => W i j - Y i j)). apply frob_ext. intros a b Ha Hb. rewrite <- E by assumption. rewrite <- Rabs_Ropp. f_equal. ring. }
  assert (W0 : 0 <= frobR 4 W) by apply frob_nonneg.
  assert (W2 : frobR 4 W * (c * y) <= frobR 4 W * / 2) by (apply Rmult_le_compat_l; assumption).
  assert (F3 : frobR 4 W * (c * y) <= 2 * y * (c * y)) by (apply Rmult_le_compat_r; [apply Rmult_le_pos; assumption|lra]).
  pose proof (entry_frob F i j Hi Hj) as EN. rewrite <- (E i j Hi Hj) in EN. rewrite <- Rabs_Ropp. replace (- (W i j - Y i j)) with (Y i j - W i j) by ring.
  replace (2 * c * (y * y)) with (2 * y * (c * y)) by ring. lra.
Qed.
