(** Property C220: histories of transformation calls on a double matrix. *)
From Coq Require Import ZArith Reals Lra Psatz List.
From Flocq Require Import Core.Core IEEE754.BinarySingleNaN IEEE754.Binary IEEE754.Bits.
From Verif Require Import InstF MMatrix LMatrix LMat4 LSum Spec Spec3 Spec4 Spec13 Spec14 Spec17 LEdit PFloat LFloat PFloat2 LErr PMatrix3 PRayF PQrF PQrO PChain LRot PRotF PMoveF.
Import ListNotations.
Local Open Scope R_scope.
Local Open Scope list_scope.
Local Existing Instance F64Scalar.
Local Notation "a *' b" := (b64_mult mode_NE a b) (at level 40, left associativity).
Local Notation bp := (bpow radix2).

(** The caller's program: any sequence of these calls on one 4 x 4 matrix. *)
Inductive edit : Type :=
  | EMove (x : side * axis * f64)      (* m.rotate_x( t ), ..., m.pre_rotate_z( t ) *)
  | EScale (s : f64 * f64 * f64)       (* m.scale( s ) *)
  | EScaleTr (s : f64 * f64 * f64)     (* m.scale_translation( s ) *)
  | ESetTr (t : f64 * f64 * f64)       (* m.set_translation( t ) *)
  | ETimes (b : list f64)              (* m = m * b *)
  | EPreTimes (b : list f64).          (* m = b * m *)
Definition arr3 (s : f64 * f64 * f64) : list f64 := let '(x, y, z) := s in [x; y; z].
Definition edit_one {cfg : Cfg} {TT : Trig f64} (e : edit) (m : list f64) : res (list f64) :=
  match e with
  | EMove x => move_about x m
  | EScale s => mat_scale m (arr3 s)
  | EScaleTr s => mat_scale_translation m (arr3 s)
  | ESetTr t => mat_set_translation m (arr3 t)
  | ETimes b => mat_mul 4 4 4 m b
  | EPreTimes b => mat_mul 4 4 4 b m
  end.
Fixpoint edit_all {cfg : Cfg} {TT : Trig f64} (m : list f64) (l : list edit) : res (list f64) :=
  match l with
  | [] => Ok m
  | e :: l' => y <- edit_one e m ;; edit_all y l'
  end.
(** The same calls with the exact values of their arguments. *)
Definition val3 (s : f64 * f64 * f64) : V3 := let '(x, y, z) := s in (val x, val y, val z).
Definition real_edit (e : edit) : editR :=
  match e with
  | EMove x => RMove (fst x, val (snd x))
  | EScale s => RScale (val3 s)
  | EScaleTr s => RScaleTr (val3 s)
  | ESetTr t => RSetTr (val3 t)
  | ETimes b => RTimes (mcells 4 b)
  | EPreTimes b => RPreTimes (mcells 4 b)
  end.
(** Finite arguments, matrices of 16 elements. *)
Definition ok_edit (e : edit) : Prop :=
  match e with
  | EMove x => fin (snd x)
  | EScale (x, y, z) | EScaleTr (x, y, z) | ESetTr (x, y, z) => fin x /\ fin y /\ fin z
  | ETimes b | EPreTimes b => length b = 16%nat /\ forall x, In x b -> fin x
  end.

(** ** Cells *)
Lemma mfin k a b : fin a -> fin b -> (-1074 <= k < 1024)%Z -> Rabs (val a * val b) <= bp k ->
  okf k (a *' b) /\ Rabs (val (a *' b) - val a * val b) <= uro * Rabs (val a * val b) + eta.
Proof.
  intros Fa Fb Hk P. pose proof (rnd_le _ _ (proj1 Hk) P) as RB.
  destruct (mult_fin a b Fa Fb) as (F & E). { eapply Rle_lt_trans; [exact RB|]. apply bpow_lt. lia. }
  split; [split; [exact F|rewrite E; exact RB]|]. rewrite E.
  destruct (mult_error (val a) (val b)) as (d & e & Hd & He & ->).
  replace (val a * val b * (1 + d) + e - val a * val b) with (d * (val a * val b) + e) by ring.
  eapply Rle_trans; [apply Rabs_triang|]. rewrite (Rabs_mult d). apply Rplus_le_compat; [|exact He].
  apply Rmult_le_compat_r; [apply Rabs_pos|exact Hd].
Qed.
Lemma dot_cell (a b : nat -> f64) : (forall k, (k < 4)%nat -> okf 1003 (a k *' b k)) ->
  fin (ssum 4 (fun k => smul (a k) (b k))) /\
  Rabs (val (ssum 4 (fun k => smul (a k) (b k))) - rsum 4 (fun k => val (a k) * val (b k))) <= 42 / 10 * uro * rsum 4 (fun k => Rabs (val (a k)) * Rabs (val (b k))) + 5 * eta.
Proof.
  intros M.
  assert (F : fin (ssum 4 (fun k => smul (a k) (b k)))).
  { cbn [ssum sadd smul szero F64Scalar].
    assert (Z0 : okf 1003 f64_zero) by (apply (okf_const f64_zero 0 1003); [reflexivity|reflexivity|rewrite Rabs_R0; apply bpow_ge_0]).
    pose proof (proj1 (okf_plus 1003 1004 _ _ Z0 (M 0%nat ltac:(lia)) eq_refl ltac:(lia))) as S1.
    pose proof (proj1 (okf_plus 1004 1005 _ _ S1 (okf_le 1003 1004 _ (M 1%nat ltac:(lia)) ltac:(lia)) eq_refl ltac:(lia))) as S2.
    pose proof (proj1 (okf_plus 1005 1006 _ _ S2 (okf_le 1003 1005 _ (M 2%nat ltac:(lia)) ltac:(lia)) eq_refl ltac:(lia))) as S3.
    exact (proj1 (proj1 (okf_plus 1006 1007 _ _ S3 (okf_le 1003 1006 _ (M 3%nat ltac:(lia)) ltac:(lia)) eq_refl ltac:(lia)))). }
  split; [exact F|]. eapply Rle_trans; [exact (ssum_error a b 4 F)|]. unfold dot_bound.
  rewrite (rsum_ext 4 (fun i => Rabs (val (a i) * val (b i))) (fun k => Rabs (val (a k)) * Rabs (val (b k)))) by (intros; apply Rabs_mult).
  set (s := rsum 4 _). assert (S0 : 0 <= s) by (unfold s; apply rsum_nonneg; intros; apply Rmult_le_pos; apply Rabs_pos).
  pose proof eta_pos as EP. replace (INR 4) with 4 by (cbn; lra).
  assert (B : 1 <= (1 + uro) ^ 4 <= 1 + 42 / 10 * uro /\ (1 + uro) ^ 4 <= 5 / 4) by (rewrite uro_val; lra). destruct B as ((B1 & B2) & B3).
  apply Rplus_le_compat; [apply Rmult_le_compat_r; lra|]. replace (4 * eta * (1 + uro) ^ 4) with (4 * (1 + uro) ^ 4 * eta) by ring. apply Rmult_le_compat_r; lra.
Qed.
(** A product of two matrices of doubles. *)
Lemma product_err (f g : nat -> nat -> f64) : finM f -> finM g -> frobR 4 (valM f) * frobR 4 (valM g) <= bp 1003 ->
  let k := fun i j => ssum 4 (fun p => smul (f i p) (g p j)) in
  finM k /\ frobR 4 (fun i j => valM k i j - mmulR 4 (valM f) (valM g) i j) <= 42 / 10 * uro * (frobR 4 (valM f) * frobR 4 (valM g)) + 80 * eta.
Proof.
  intros Ff Fg B k. pose proof uro_pos as UP. pose proof eta_pos as EP.
  assert (C : forall i j, (i < 4)%nat -> (j < 4)%nat -> fin (k i j) /\
    Rabs (valM k i j - mmulR 4 (valM f) (valM g) i j) <= 42 / 10 * uro * mmulR 4 (fun i p => Rabs (valM f i p)) (fun p j => Rabs (valM g p j)) i j + 5 * eta).
  { intros i j Hi Hj. apply (dot_cell (fun p => f i p) (fun p => g p j)). intros p Hp. apply (mfin 1003); [apply Ff; assumption|apply Fg; assumption|lia|].
    eapply Rle_trans; [|exact B]. rewrite Rabs_mult. apply Rmult_le_compat; try apply Rabs_pos; [apply (frob_cell (valM f) i p Hi Hp)|apply (frob_cell (valM g) p j Hp Hj)]. }
  split; [intros i j Hi Hj; apply (C i j Hi Hj)|].
  eapply Rle_trans; [apply (frob_le _ (fun i j => 42 / 10 * uro * mmulR 4 (fun i p => Rabs (valM f i p)) (fun p j => Rabs (valM g p j)) i j + 5 * eta)); intros i j Hi Hj; apply (C i j Hi Hj)|].
  eapply Rle_trans; [apply frob_triangle|]. apply Rplus_le_compat.
  - rewrite frob_scal, Rabs_pos_eq by lra. apply Rmult_le_compat_l; [lra|]. eapply Rle_trans; [apply frob_mul|]. rewrite !frob_abs. apply Rle_refl.
  - eapply Rle_trans; [apply (frob_const _ (5 * eta)); [lra|intros; rewrite Rabs_pos_eq; lra]|]. lra.
Qed.

(** ** One call *)
Section Step.
Context (cfg : Cfg) (TT : Trig f64) (d : R) (Hd : 0 <= d <= / 100) (GT : good_trig TT d).
Local Notation K0 := (2 * (d + 21 / 10 * uro)).
Definition scaledF (s : f64 * f64 * f64) (h : nat -> nat -> f64) (i j : nat) : f64 := if (j <? 3)%nat then h i j *' nth j (arr3 s) f64_zero else h i j.
Definition scaledTrF (s : f64 * f64 * f64) (h : nat -> nat -> f64) (i j : nat) : f64 := if ((j =? 3) && (i <? 3))%nat%bool then h i j *' nth i (arr3 s) f64_zero else h i j.
Definition setTrF (s : f64 * f64 * f64) (h : nat -> nat -> f64) (i j : nat) : f64 := if ((j =? 3) && (i <? 3))%nat%bool then nth i (arr3 s) f64_zero else h i j.
Lemma scale_F m h s : repM 4 4 m h -> returns (mat_scale m (arr3 s)) (fun r => repM 4 4 r (scaledF s h)).
Proof. intros Hm. destruct s as [[x y] z]. lit Hm; cbn -[b64_mult f64_zero]; apply returns_ok; apply repM_44'; cbn -[b64_mult f64_zero]; reflexivity. Qed.
Lemma scale_translation_F m h s : repM 4 4 m h -> returns (mat_scale_translation m (arr3 s)) (fun r => repM 4 4 r (scaledTrF s h)).
Proof. intros Hm. destruct s as [[x y] z]. lit Hm; cbn -[b64_mult f64_zero]; apply returns_ok; apply repM_44'; cbn -[b64_mult f64_zero]; reflexivity. Qed.
Lemma set_translation_F m h s : repM 4 4 m h -> returns (mat_set_translation m (arr3 s)) (fun r => repM 4 4 r (setTrF s h)).
Proof. intros Hm. destruct s as [[x y] z]. lit Hm; cbn -[b64_mult f64_zero]; apply returns_ok; apply repM_44'; cbn -[b64_mult f64_zero]; reflexivity. Qed.
Lemma arr3_val s i : (i < 3)%nat -> val (nth i (arr3 s) f64_zero) = comp4 (val3 s) i.
Proof. intros Hi. destruct s as [[x y] z]. destruct i as [|[|[|i]]]; [reflexivity..|lia]. Qed.
Lemma arr3_fin (s : f64 * f64 * f64) i : (let '(x, y, z) := s in fin x /\ fin y /\ fin z) -> (i < 3)%nat -> fin (nth i (arr3 s) f64_zero).
Proof. destruct s as [[x y] z]. intros (A & B & C) Hi. destruct i as [|[|[|i]]]; [assumption..|lia]. Qed.
(** Cells multiplied by components of s, the others kept. *)
Lemma cells_err (s : f64 * f64 * f64) (h k : nat -> nat -> f64) (T : nat -> nat -> R) :
  (let '(x, y, z) := s in fin x /\ fin y /\ fin z) -> finM h -> Rmax 1 (max3 (val3 s)) * frobR 4 (valM h) <= bp 1003 ->
  (forall i j, (i < 4)%nat -> (j < 4)%nat -> (k i j = h i j /\ T i j = valM h i j) \/
    exists q, (q < 3)%nat /\ k i j = h i j *' nth q (arr3 s) f64_zero /\ T i j = valM h i j * comp4 (val3 s) q) ->
  finM k /\ frobR 4 (fun i j => valM k i j - T i j) <= uro * (Rmax 1 (max3 (val3 s)) * frobR 4 (valM h)) + 16 * eta.
Proof.
  intros Fs Fh B H. pose proof uro_pos as UP. pose proof eta_pos as EP. set (M := Rmax 1 (max3 (val3 s))) in *. assert (M1 : 1 <= M) by apply Rmax_l.
  assert (C : forall i j, (i < 4)%nat -> (j < 4)%nat -> fin (k i j) /\ Rabs (valM k i j - T i j) <= uro * (M * Rabs (valM h i j)) + eta).
  { intros i j Hi Hj. destruct (H i j Hi Hj) as [(E1 & E2)|(q & Hq & E1 & E2)].
    - rewrite E2. unfold valM. rewrite E1. split; [apply Fh; assumption|]. rewrite Rminus_diag_eq, Rabs_R0 by reflexivity.
      pose proof (Rabs_pos (val (h i j))). assert (0 <= uro * (M * Rabs (val (h i j)))) by (apply Rmult_le_pos; [lra|apply Rmult_le_pos; lra]). lra.
    - rewrite E2, <- arr3_val by exact Hq. unfold valM. rewrite E1. pose proof (max3_ge (val3 s) q ltac:(lia)) as G. fold M in G. rewrite <- arr3_val in G by exact Hq.
      assert (P : Rabs (val (h i j) * val (nth q (arr3 s) f64_zero)) <= M * Rabs (val (h i j))) by (apply mul_cell; assumption).
      pose proof (frob_cell (valM h) i j Hi Hj) as FC. unfold valM at 1 in FC.
      destruct (mfin 1003 (h i j) (nth q (arr3 s) f64_zero)) as ((F & _) & E); [apply Fh; assumption|apply arr3_fin; assumption|lia| |].
      + eapply Rle_trans; [exact P|]. eapply Rle_trans; [|exact B]. apply Rmult_le_compat_l; [lra|exact FC].
      + split; [exact F|]. eapply Rle_trans; [exact E|]. apply Rplus_le_compat_r. apply Rmult_le_compat_l; [lra|exact P]. }
  split; [intros i j Hi Hj; apply (C i j Hi Hj)|].
  eapply Rle_trans; [apply (frob_le _ (fun i j => (uro * M) * Rabs (valM h i j) + eta)); intros i j Hi Hj; rewrite Rmult_assoc; apply (C i j Hi Hj)|].
  eapply Rle_trans; [apply frob_triangle|]. apply Rplus_le_compat.
  - rewrite frob_scal, frob_abs, Rabs_pos_eq by (apply Rmult_le_pos; lra). rewrite Rmult_assoc. apply Rle_refl.
  - apply (frob_const _ eta); [lra|intros; rewrite Rabs_pos_eq; lra].
Qed.
Lemma edit_step e m h : repM 4 4 m h -> ok_edit e -> finM h -> factor (real_edit e) * frobR 4 (valM h) <= bp 1003 ->
  exists r k, edit_one e m = Ok r /\ repM 4 4 r k /\ finM k /\
  frobR 4 (fun i j => valM k i j - editedR (real_edit e) (valM h) i j) <= K0 * (factor (real_edit e) * frobR 4 (valM h)) + 80 * eta.
Proof.
  intros Hm He Fh B. pose proof uro_pos as UP. pose proof eta_pos as EP. pose proof (K_pos d Hd) as KP. pose proof (frob_nn (valM h)) as N0.
  assert (W : forall z, 0 <= z -> uro * z + 16 * eta <= K0 * z + 80 * eta). { intros z Hz. assert (uro * z <= K0 * z) by (apply Rmult_le_compat_r; lra). lra. }
  destruct e as [x|s|s|s|b|b]; cbn [edit_one real_edit factor ok_edit] in *.
  - destruct (move_step cfg TT d Hd GT x m h Hm He) as (r & k & Er & Hr & S1 & S2). exists r, k. split; [exact Er|]. split; [exact Hr|].
    assert (Fk : finM k). { apply S2; [exact Fh|]. rewrite Rmult_1_l in B. eapply Rle_trans; [exact B|]. apply bpow_le. lia. }
    split; [exact Fk|]. destruct (S1 Fk) as (_ & E). cbn [editedR]. rewrite Rmult_1_l. eapply Rle_trans; [exact E|]. lra.
  - destruct (scale_F m h s Hm) as (r & Er & Hr). exists r, (scaledF s h). split; [exact Er|]. split; [exact Hr|].
    destruct (cells_err s h (scaledF s h) (editedR (RScale (val3 s)) (valM h)) He Fh B) as (Fk & E).
    + intros i j Hi Hj. unfold scaledF. cbn [editedR]. destruct (Nat.ltb_spec j 3) as [L|L].
      * right. exists j. repeat split; assumption.
      * left. split; [reflexivity|]. replace j with 3%nat by lia. destruct s as [[x y] z]. cbn [val3 comp4 nth]. ring.
    + split; [exact Fk|]. eapply Rle_trans; [exact E|]. apply W. apply Rmult_le_pos; [|exact N0]. pose proof (Rmax_l 1 (max3 (val3 s))). lra.
  - destruct (scale_translation_F m h s Hm) as (r & Er & Hr). exists r, (scaledTrF s h). split; [exact Er|]. split; [exact Hr|].
    destruct (cells_err s h (scaledTrF s h) (editedR (RScaleTr (val3 s)) (valM h)) He Fh B) as (Fk & E).
    + intros i j Hi Hj. unfold scaledTrF. cbn [editedR]. destruct (Nat.eqb_spec j 3) as [L|L]; cbn [andb]; [|left; split; reflexivity].
      destruct (Nat.ltb_spec i 3) as [L2|L2]; [right; exists i; repeat split; assumption|]. left. split; [reflexivity|].
      replace i with 3%nat by lia. destruct s as [[x y] z]. cbn [val3 comp4 nth]. ring.
    + split; [exact Fk|]. eapply Rle_trans; [exact E|]. apply W. apply Rmult_le_pos; [|exact N0]. pose proof (Rmax_l 1 (max3 (val3 s))). lra.
  - destruct (set_translation_F m h s Hm) as (r & Er & Hr). exists r, (setTrF s h). split; [exact Er|]. split; [exact Hr|]. split.
    + intros i j Hi Hj. unfold setTrF. destruct ((j =? 3) && (i <? 3))%nat%bool eqn:Q; [|apply Fh; assumption].
      apply arr3_fin; [exact He|]. apply andb_prop in Q. apply Nat.ltb_lt, (proj2 Q).
    + rewrite (frob_ext _ (fun _ _ => 0)).
      * rewrite frob_0. assert (0 <= K0 * (1 * frobR 4 (valM h))) by (apply Rmult_le_pos; lra). lra.
      * intros i j Hi Hj. cbn [editedR]. unfold valM, setTrF. destruct ((j =? 3) && (i <? 3))%nat%bool eqn:Q; [|ring].
        apply andb_prop in Q. rewrite arr3_val by (apply Nat.ltb_lt, (proj2 Q)). ring.
  - destruct He as (Lb & Fb). pose proof (repM_nth 4 4 b f64_zero Lb) as Hb. set (g := fun i j : nat => nth (j * 4 + i) b f64_zero) in *.
    change (mcells 4 b) with (valM g) in *. assert (Fg : finM g) by (intros i j Hi Hj; apply Fb, nth_In; lia).
    destruct (mat_mul_spec 4 4 4 m b h g Hm Hb) as (r & Er & Hr). exists r. eexists. split; [exact Er|]. split; [exact Hr|].
    assert (P : frobR 4 (valM h) * frobR 4 (valM g) <= Rmax 1 (frobR 4 (valM g)) * frobR 4 (valM h)) by (rewrite (Rmult_comm (frobR 4 (valM h))); apply Rmult_le_compat_r; [exact N0|apply Rmax_r]).
    destruct (product_err h g Fh Fg ltac:(lra)) as (Fk & E). split; [exact Fk|]. eapply Rle_trans; [exact E|]. apply Rplus_le_compat_r.
    eapply Rle_trans; [apply Rmult_le_compat_l; [lra|exact P]|]. apply Rmult_le_compat_r; [|lra]. apply Rmult_le_pos; [|exact N0]. pose proof (Rmax_l 1 (frobR 4 (valM g))). lra.
  - destruct He as (Lb & Fb). pose proof (repM_nth 4 4 b f64_zero Lb) as Hb. set (g := fun i j : nat => nth (j * 4 + i) b f64_zero) in *.
    change (mcells 4 b) with (valM g) in *. assert (Fg : finM g) by (intros i j Hi Hj; apply Fb, nth_In; lia).
    destruct (mat_mul_spec 4 4 4 b m g h Hb Hm) as (r & Er & Hr). exists r. eexists. split; [exact Er|]. split; [exact Hr|].
    assert (P : frobR 4 (valM g) * frobR 4 (valM h) <= Rmax 1 (frobR 4 (valM g)) * frobR 4 (valM h)) by (apply Rmult_le_compat_r; [exact N0|apply Rmax_r]).
    destruct (product_err g h Fg Fh ltac:(lra)) as (Fk & E). split; [exact Fk|]. eapply Rle_trans; [exact E|]. apply Rplus_le_compat_r.
    eapply Rle_trans; [apply Rmult_le_compat_l; [lra|exact P]|]. apply Rmult_le_compat_r; [|lra]. apply Rmult_le_pos; [|exact N0]. pose proof (Rmax_l 1 (frobR 4 (valM g))). lra.
Qed.
End Step.
Lemma reach_ge : forall l b, 0 <= b -> b <= reachR l b.
Proof.
  induction l as [|e l IH]; intros b Hb; [apply Rle_refl|]. unfold reachR in *. cbn [fold_left].
  pose proof (factor_ge1 e) as F1. pose proof (offset_nn e) as O1. assert (b <= factor e * b) by (rewrite <- (Rmult_1_l b) at 1; apply Rmult_le_compat_r; lra).
  eapply Rle_trans; [|apply IH; lra]. lra.
Qed.
Lemma edit_all_spec (cfg : Cfg) (TT : Trig f64) (d : R) (Hd : 0 <= d <= / 100) (GT : good_trig TT d) :
  let K := 2 * (d + 21 / 10 * uro) + / 10 * uro in
  forall (l : list edit) (m : list f64) (h : nat -> nat -> f64) (X : nat -> nat -> R) (P B : R),
  repM 4 4 m h -> Forall ok_edit l -> finM h -> 1 <= P -> P * (1 + K) ^ length l <= 2 -> / 2 ^ 1000 <= B ->
  reachR (map real_edit l) B <= 2 ^ 1000 -> frobR 4 X <= B -> frobR 4 (fun i j => valM h i j - X i j) <= (P - 1) * B ->
  exists r k, edit_all m l = Ok r /\ repM 4 4 r k /\ finM k /\
  frobR 4 (historyR (map real_edit l) X) <= reachR (map real_edit l) B /\
  frobR 4 (fun i j => valM k i j - historyR (map real_edit l) X i j) <= (P * (1 + K) ^ length l - 1) * reachR (map real_edit l) B.
Proof.
  intros K. pose proof uro_pos as UP. pose proof eta_pos as EP. pose proof (K_pos d Hd) as KP0. assert (KP : 0 <= K) by (unfold K; lra).
  assert (E0 : 80 * eta <= / 10 * uro * / 2 ^ 1000).
  { unfold eta. replace (/ 2 ^ 1075) with (/ 2 ^ 75 * / 2 ^ 1000) by (rewrite <- Rinv_mult, <- pow_add; reflexivity). rewrite <- Rmult_assoc. apply Rmult_le_compat_r; [left; apply Rinv_0_lt_compat, pow_lt; lra|]. rewrite uro_val. lra. }
  assert (P1000 : 0 < / 2 ^ 1000) by (apply Rinv_0_lt_compat, pow_lt; lra).
  induction l as [|e l IH]; intros m h X P B Hm HL Fh HP HPK HB HR HX HD.
  - exists m, h. split; [reflexivity|]. split; [exact Hm|]. split; [exact Fh|]. cbn [length pow map]. unfold historyR, reachR. cbn [fold_left]. split; [exact HX|]. rewrite Rmult_1_r. exact HD.
  - inversion HL as [|? ? He HL']; subst. set (re := real_edit e) in *. pose proof (factor_ge1 re) as F1. pose proof (offset_nn re) as O1.
    cbn [length map] in *. rewrite <- tech_pow_Rmult in *. fold re in HR |- *.
    change (reachR (re :: map real_edit l) B) with (reachR (map real_edit l) (factor re * B + offset re)) in *.
    change (historyR (re :: map real_edit l) X) with (historyR (map real_edit l) (editedR re X)).
    set (B' := factor re * B + offset re) in *. set (Q := (1 + K) ^ length l) in *. assert (Q1 : 1 <= Q) by (apply pow_R1_Rle; lra).
    assert (FB : B <= factor re * B) by (rewrite <- (Rmult_1_l B) at 1; apply Rmult_le_compat_r; lra).
    assert (B1 : factor re * B <= 2 ^ 1000). { pose proof (reach_ge (map real_edit l) B' ltac:(unfold B'; lra)). unfold B' in *. lra. }
    assert (PK : P * (1 + K) <= P * (1 + K) * Q) by (rewrite <- (Rmult_1_r (P * (1 + K))) at 1; apply Rmult_le_compat_l; [apply Rmult_le_pos; lra|exact Q1]).
    assert (PK2 : P <= P * (1 + K)) by (rewrite <- (Rmult_1_r P) at 1; apply Rmult_le_compat_l; lra).
    replace (P * ((1 + K) * Q)) with (P * (1 + K) * Q) in * by ring.
    assert (P2 : P <= 2) by lra.
    assert (LH : frobR 4 (valM h) <= P * B).
    { rewrite (frob_ext (valM h) (fun i j => X i j + (valM h i j - X i j))) by (intros; ring). eapply Rle_trans; [apply frob_triangle|]. lra. }
    assert (RNG : factor re * frobR 4 (valM h) <= bp 1003).
    { apply Rle_trans with (2 * 2 ^ 1000).
      - apply Rle_trans with (factor re * (P * B)); [apply Rmult_le_compat_l; lra|]. replace (factor re * (P * B)) with (P * (factor re * B)) by ring. apply Rmult_le_compat; lra.
      - replace (bp 1003) with (8 * 2 ^ 1000) by (replace 8 with (2 ^ 3) by lra; rewrite <- pow_add; exact (eq_sym (bp_pow 1003))). assert (0 < 2 ^ 1000) by (apply pow_lt; lra). lra. }
    destruct (edit_step cfg TT d Hd GT e m h Hm He Fh RNG) as (y & k1 & Ey & Hy & Fk & SE). fold re in SE.
    assert (SW : 80 * eta <= / 10 * uro * B). { eapply Rle_trans; [exact E0|]. apply Rmult_le_compat_l; lra. }
    destruct (edit_err (2 * (d + 21 / 10 * uro)) (/ 10 * uro) (80 * eta) re (valM h) X (valM k1) P B KP0 ltac:(lra) HP ltac:(lra) SW HX HD SE) as (_ & GX & GE). fold K in GE. fold B' in GX, GE.
    cbn [edit_all]. rewrite Ey. cbn [bind].
    apply (IH y k1 (editedR re X) (P * (1 + K)) B' Hy HL' Fk); try assumption; unfold B'; lra.
Qed.

(** C220: every history of rotations from both sides, scalings, translations and
    products stays as close to the exact matrix as the number of calls and the
    sizes of the arguments allow. *)
Theorem C220_transformation_histories :
  forall (cfg : Cfg) (TT : Trig f64) (d : R) (m : list f64) (l : list edit),
  0 <= d <= / 100 -> good_trig TT d -> length m = 16%nat -> (forall x, In x m -> fin x) -> Forall ok_edit l ->
  let K := 2 * d + 43 / 10 / 2 ^ 53 in
  let n := length l in
  let B := reachR (map real_edit l) (frobR 4 (mcells 4 m) + / 2 ^ 1000) in
  2 * INR n * K <= 1 -> B <= 2 ^ 1000 ->
  exists r, edit_all m l = Ok r /\ length r = 16%nat /\ (forall x, In x r -> fin x) /\
  let X := historyR (map real_edit l) (mcells 4 m) in
  frobR 4 X <= B /\ frobR 4 (fun i j => mcells 4 r i j - X i j) <= 2 * INR n * K * B.
Proof.
  intros cfg TT d m l Hd GT Lm Fm HL K n B HK HB. pose proof (repM_nth 4 4 m f64_zero Lm) as Hm. set (h := fun i j : nat => nth (j * 4 + i) m f64_zero) in *.
  change (mcells 4 m) with (valM h) in *. assert (Fh : finM h) by (intros i j Hi Hj; apply Fm, nth_In; lia).
  pose proof uro_pos as UP. assert (KE : K = 2 * (d + 21 / 10 * uro) + / 10 * uro) by (unfold K, uro; field; apply pow_nonzero; lra).
  pose proof (K_pos d Hd) as KP. assert (KP' : 0 <= K) by lra. pose proof (pow_bern K n KP' HK) as PB.
  assert (P1000 : 0 < / 2 ^ 1000) by (apply Rinv_0_lt_compat, pow_lt; lra). pose proof (frob_nn (valM h)) as N0.
  pose proof (edit_all_spec cfg TT d Hd GT) as S. cbv zeta in S. rewrite <- KE in S.
  destruct (S l m h (valM h) 1 (frobR 4 (valM h) + / 2 ^ 1000) Hm HL Fh (Rle_refl 1)) as (r & k & Er & Hr & Fk & GX & GE).
  - fold n. rewrite Rmult_1_l. lra.
  - lra.
  - exact HB.
  - lra.
  - rewrite (frob_ext _ (fun _ _ => 0)) by (intros; ring). rewrite frob_0. lra.
  - fold B in GX, GE. fold n in GE. exists r. split; [exact Er|]. split; [apply Hr|]. split; [|split; [exact GX|]].
    + apply (cells_all 4 r (proj1 Hr)). intros i j Hi Hj. rewrite (nth_error_nth r (j * 4 + i) f64_zero (proj2 Hr i j Hi Hj)). apply Fk; assumption.
    + rewrite (frob_ext _ (fun i j => valM k i j - historyR (map real_edit l) (valM h) i j)) by (intros i j Hi Hj; rewrite (rep_mcells 4 r k Hr i j Hi Hj); reflexivity).
      eapply Rle_trans; [exact GE|]. apply Rmult_le_compat_r; [|lra].
      eapply Rle_trans; [|apply (reach_ge (map real_edit l) (frobR 4 (valM h) + / 2 ^ 1000)); lra]. lra.
Qed.
Print Assumptions C220_transformation_histories.

Definition exl : list edit :=
  [EMove (Post, AX, f64_one); EScale (f64_two, f64_one, f64_half); ESetTr (f64_one, f64_two, f64_zero); ETimes id64;
   EMove (Pre, AZ, f64_two); EScaleTr (f64_two, f64_two, f64_two); EPreTimes id64].
Example C220_hypotheses_met :
  good_trig grid_trig (/ 2 ^ 52) /\ length id64 = 16%nat /\ (forall x, In x id64 -> fin x) /\ Forall ok_edit exl /\
  2 * INR (length exl) * (2 * / 2 ^ 52 + 43 / 10 / 2 ^ 53) <= 1 /\
  reachR (map real_edit exl) (frobR 4 (mcells 4 id64) + / 2 ^ 1000) <= 2 ^ 1000.
Proof.
  assert (FI : forall x, In x id64 -> fin x). { intros x Hx. cbn -[f64_one f64_zero] in Hx. repeat (destruct Hx as [<-|Hx]; [reflexivity|]). destruct Hx. }
  split; [exact grid_trig_good|]. split; [reflexivity|]. split; [exact FI|]. split; [|split].
  - unfold exl. repeat apply Forall_cons; try apply Forall_nil; cbn [ok_edit snd]; first [split; [reflexivity|exact FI]|repeat split; reflexivity].
  - unfold exl. cbn [length]. rewrite INR_IZR_INZ. change (Z.of_nat 7) with 7%Z. assert (/ 2 ^ 52 <= / 1000) by (apply Rinv_le_contravar; lra). assert (/ 2 ^ 53 <= / 1000) by (apply Rinv_le_contravar; lra). lra.
  - assert (F2 : frobR 4 (mcells 4 id64) = 2). { apply C214_hypotheses_met. }
    assert (M : forall s, max3 s <= 2 -> 1 <= Rmax 1 (max3 s) <= 2) by (intros s Hs; split; [apply Rmax_l|apply Rmax_lub; lra]).
    assert (Z : val f64_zero = 0) by reflexivity. assert (A2 : Rabs 2 = 2) by (apply Rabs_pos_eq; lra). assert (AH : Rabs (/ 2) = / 2) by (apply Rabs_pos_eq; lra).
    destruct (M (val3 (f64_two, f64_one, f64_half))) as (a1 & a2). { cbn [val3 max3]. rewrite val_two, val_one, val_half, A2, AH, Rabs_R1. repeat apply Rmax_lub; lra. }
    destruct (M (val3 (f64_two, f64_two, f64_two))) as (b1 & b2). { cbn [val3 max3]. rewrite val_two, A2. repeat apply Rmax_lub; lra. }
    unfold reachR, exl. cbn [map real_edit fold_left factor offset]. rewrite F2, (Rmax_right 1 2) by lra.
    set (s1 := Rmax 1 (max3 (val3 (f64_two, f64_one, f64_half)))) in *. set (s2 := Rmax 1 (max3 (val3 (f64_two, f64_two, f64_two)))) in *.
    cbn [val3]. rewrite val_two, val_one, Z, A2, Rabs_R1, Rabs_R0.
    assert (P : 0 < / 2 ^ 1000 <= 1). { split; [apply Rinv_0_lt_compat, pow_lt; lra|]. rewrite <- Rinv_1. apply Rinv_le_contravar; [lra|]. apply pow_R1_Rle. lra. }
    assert (B : 128 <= 2 ^ 1000) by (replace 128 with (2 ^ 7) by lra; apply Rle_pow; [lra|lia]).
    set (t := / 2 ^ 1000) in *. eapply Rle_trans; [|exact B].
    assert (X1 : 0 <= s1 * (2 + t) <= 2 * 3) by (split; [apply Rmult_le_pos; lra|apply Rmult_le_compat; lra]).
    match goal with |- 2 * (s2 * ?u + 0) + 0 <= _ => assert (X2 : s2 * u <= 2 * 32) end; [apply Rmult_le_compat; lra|]. lra.
Qed.
