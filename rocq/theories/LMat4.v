(** Small matrices written out cell by cell. *)
From Verif Require Export LMatrixR.
Local Open Scope R_scope.

Lemma repM_lit {A} M N (l : list A) f : repM M N l f ->
  l = map (fun k => f (k mod M)%nat (k / M)%nat) (seq 0 (M * N)).
Proof. intros H. exact (repM_inj _ _ _ _ _ H (repM_map_seq M N f)). Qed.

(** Replace the array of a small matrix by the list of its cells. *)
Ltac lit H :=
  let E := fresh "E" in
  pose proof (repM_lit _ _ _ _ H) as E;
  cbv [map seq Nat.mul Nat.add Nat.modulo Nat.div Nat.divmod fst snd Nat.sub] in E;
  rewrite E in *; clear E.

(** Cell-by-cell goals about n x n matrices, n a literal. *)
Ltac cell4 i H := destruct i as [|[|[|[|i]]]]; try (exfalso; clear -H; lia).

Lemma repM_22 {A} (g : nat -> nat -> A) : repM 2 2 [g 0%nat 0%nat; g 1%nat 0%nat; g 0%nat 1%nat; g 1%nat 1%nat] g.
Proof. exact (repM_map_seq 2 2 g). Qed.
Lemma repM_33 {A} (g : nat -> nat -> A) : repM 3 3
  [g 0 0; g 1 0; g 2 0; g 0 1; g 1 1; g 2 1; g 0 2; g 1 2; g 2 2]%nat g.
Proof. exact (repM_map_seq 3 3 g). Qed.
Lemma repM_44 {A} (g : nat -> nat -> A) : repM 4 4
  [g 0 0; g 1 0; g 2 0; g 3 0; g 0 1; g 1 1; g 2 1; g 3 1;
   g 0 2; g 1 2; g 2 2; g 3 2; g 0 3; g 1 3; g 2 3; g 3 3]%nat g.
Proof. exact (repM_map_seq 4 4 g). Qed.

(** A literal array read as a matrix. *)
Definition cells (M : nat) (l : list R) (i j : nat) : R := nth (j * M + i) l 0.
Lemma repM_cells M N l : length l = (M * N)%nat -> repM M N l (cells M l).
Proof. apply repM_nth. Qed.

Lemma detR_ext n f g : (forall i j, (i < n)%nat -> (j < n)%nat -> f i j = g i j) -> detR n f = detR n g.
Proof.
  revert f g; induction n as [|n IH]; intros f g H; [reflexivity|]. cbn [detR].
  apply rsum_ext. intros j Hj. rewrite (H 0%nat j) by lia. f_equal. apply IH.
  intros r c Hr Hc. unfold minor0. apply H; [lia|]. destruct (Nat.ltb_spec c j); lia.
Qed.

Lemma detR_1 f : detR 1 f = f 0%nat 0%nat.
Proof. cbn -[IZR Rplus Rminus Rmult]. ring. Qed.
Lemma detR_2 f : (detR 2 f = f 0%nat 0%nat * f 1%nat 1%nat - f 0%nat 1%nat * f 1%nat 0%nat).
Proof. cbn -[IZR Rplus Rminus Rmult]. unfold minor0; cbn -[IZR Rplus Rminus Rmult]. ring. Qed.

Section D.
Context {cfg : Cfg} {lim : RLim}.
Lemma mat_det_R n m f : (1 <= n <= 4)%nat -> repM n n m f -> mat_det n m = Ok (detR n f).
Proof.
  intros Hn Hm. destruct n as [|[|[|[|[|n]]]]]; try lia; lit Hm; cbn -[IZR Rplus Rminus Rmult Ropp]; f_equal; unfold minor0; cbn -[IZR Rplus Rminus Rmult Ropp]; ring.
Qed.
End D.
