(** Properties C90, C91: scale_to and nnz of vectors. *)
From Coq Require Import List Bool Lia Arith.
From Verif Require Import LVecProps2 PVector2.
Import ListNotations.

Lemma filter_count (M : nat) (P : nat -> bool) : length (filter P (seq 0 M)) = count M P.
Proof.
  induction M as [|M IH]; [reflexivity|]. rewrite seq_S, filter_app, app_length, IH. cbn [count]. f_equal.
  cbn. destruct (P M); reflexivity.
Qed.
Lemma count_le M P : count M P <= M.
Proof. induction M as [|M IH]; cbn; [lia|]. destruct (P M); lia. Qed.
Lemma count_0 M P : count M P = 0 <-> forall i, i < M -> P i = false.
Proof.
  induction M as [|M IH]; cbn; [split; [lia|reflexivity]|]. split.
  - intros H i Hi. destruct (P M) eqn:E; [lia|]. destruct (Nat.eq_dec i M) as [->|]; [exact E|].
    apply IH; lia.
  - intros H. rewrite (H M) by lia. rewrite (proj2 IH); [reflexivity|]. intros i Hi; apply H; lia.
Qed.
Lemma count_all M P : count M P = M <-> forall i, i < M -> P i = true.
Proof.
  induction M as [|M IH]; cbn; [split; [lia|reflexivity]|]. pose proof (count_le M P). split.
  - intros H0 i Hi. destruct (P M) eqn:E; [|lia]. destruct (Nat.eq_dec i M) as [->|]; [exact E|].
    apply IH; lia.
  - intros H0. rewrite (H0 M) by lia. rewrite (proj2 IH); [lia|]. intros i Hi; apply H0; lia.
Qed.

(** C91.  nnz() is the number of components that differ from zero, for every
    element type; it is 0 exactly for the zero vector, M exactly when no
    component is zero. *)
Theorem C91_vector_nnz :
  forall (T : Type) (ST : Scalar T) (M : nat) (v : list T) (f : nat -> T),
  repV M v f ->
  exists n, vec_nnz M v = Ok n /\
    n = count M (fun i => negb (seqb (f i) szero)) /\ n <= M /\
    (n = 0 <-> forall i, i < M -> seqb (f i) szero = true) /\
    (n = M <-> forall i, i < M -> seqb (f i) szero = false).
Proof.
  intros T ST M v f Hv. exists (count M (fun i => negb (seqb (f i) szero))).
  rewrite (vec_nnz_spec M v f Hv), filter_count. split; [reflexivity|]. split; [reflexivity|].
  split; [apply count_le|]. rewrite count_0, count_all. split.
  - split; intros H i Hi; specialize (H i Hi); destruct (seqb (f i) szero); cbn in *; congruence.
  - split; intros H i Hi; specialize (H i Hi); destruct (seqb (f i) szero); cbn in *; congruence.
Qed.
Print Assumptions C91_vector_nnz.
Example C91_hypotheses_met : repV 3 [1; 0; 5]%R (fun i => match i with 0 => 1 | 1 => 0 | _ => 5 end)%R.
Proof. split; [reflexivity|]. intros [|[|[|]]] Hi; try reflexivity; lia. Qed.

(** What scale_to() stores, for every conversion [cast] to the target type. *)
Lemma scale_to_R (cfg : Cfg) (lim : RLim) (U : Type) (cast : R -> U) (maxTT : R) (M : nat) (v : list R) (f : nat -> R)
  (result : list U) (mn mx : R) :
  repV M v f -> length result = M -> mn <> mx ->
  returns (vec_scale_to cast maxTT M v result mn mx)
    (fun r => repV M r (fun i => cast ((f i + (mx - mn) / 2) / (mx - mn) * maxTT)%R)).
Proof.
  intros Hv Hr Hne. unfold vec_scale_to. cbn [sdiv RScalar ssub smul sadd shalf sone].
  rewrite Reqb_false by lra. cbn [bind].
  destruct M as [|M].
  { exists result. split; [reflexivity|]. split; [exact Hr|]. intros; lia. }
  destruct result as [|u0 result]; [discriminate|].
  eapply (fill1_all (S M) (u0 :: result) (fun i => nth i (u0 :: result) u0)); [apply repV_nth; exact Hr|].
  intros i l' Hi Hl'. rewrite (vat_ok (S M) v f i Hv Hi). cbn [bind].
  replace ((S M <=? i) && safe) with false by (destruct (Nat.leb_spec (S M) i); [lia|reflexivity]).
  f_equal. f_equal. field. lra.
Qed.

(** C90.  "scale_to( result, min, max ) maps [min, max] linearly onto
    [0, max of the target type]": the stored component is
    (x + (max-min)/2) / (max-min) * MAX, which is that map exactly when the
    range is symmetric about zero. *)
Theorem C90_scale_to_symmetric_partial :
  forall (cfg : Cfg) (lim : RLim) (U : Type) (cast : R -> U) (maxTT : R) (M : nat) (v : list R) (f : nat -> R)
    (result : list U) (m : R),
  repV M v f -> length result = M -> (0 < m)%R -> (0 < maxTT)%R ->
  returns (vec_scale_to cast maxTT M v result (- m)%R m)
    (fun r => repV M r (fun i => cast ((f i - - m) / (m - - m) * maxTT)%R)) /\
  (forall i, i < M -> (- m <= f i <= m)%R -> (0 <= (f i - - m) / (m - - m) * maxTT <= maxTT)%R).
Proof.
  intros cfg lim U cast maxTT M v f result m Hv Hr Hm HT. split.
  - eapply returns_impl; [apply (scale_to_R cfg lim U cast maxTT M v f result (- m) m Hv Hr); lra|].
    intros r H. eapply repV_ext; [exact H|]. intros i Hi. cbv beta. apply f_equal. field. lra.
  - intros i Hi Hf.
    assert (H : (0 <= (f i - - m) / (m - - m) <= 1)%R).
    { split; [apply Rmult_le_pos; [lra|]; left; apply Rinv_0_lt_compat; lra|]. apply Rmult_le_reg_r with (m - - m)%R; [lra|].
      unfold Rdiv. rewrite Rmult_assoc, Rinv_l by lra. lra. }
    split; [apply Rmult_le_pos; lra|]. nra.
Qed.
Print Assumptions C90_scale_to_symmetric_partial.
(** For every other range every component is off by the same amount: min is not
    mapped to zero and max not to MAX. *)
Theorem C90_scale_to_refuted :
  forall (cfg : Cfg) (lim : RLim) (maxTT : R) (M : nat) (v : list R) (f : nat -> R) (result : list R) (mn mx : R),
  repV M v f -> length result = M -> (mn < mx)%R -> (0 < maxTT)%R ->
  exists r fr, vec_scale_to (fun x => x) maxTT M v result mn mx = Ok r /\ repV M r fr /\
  forall i, i < M -> (fr i - (f i - mn) / (mx - mn) * maxTT = (mn + mx) / (2 * (mx - mn)) * maxTT)%R /\
    (fr i = (f i - mn) / (mx - mn) * maxTT <-> mn + mx = 0)%R.
Proof.
  intros cfg lim maxTT M v f result mn mx Hv Hr Hlt HT.
  destruct (scale_to_R cfg lim R (fun x => x) maxTT M v f result mn mx Hv Hr) as (r & E & H); [lra|].
  exists r, (fun i => (f i + (mx - mn) / 2) / (mx - mn) * maxTT)%R. split; [exact E|]. split; [exact H|].
  intros i Hi.
  assert (D : ((f i + (mx - mn) / 2) / (mx - mn) * maxTT - (f i - mn) / (mx - mn) * maxTT =
               (mn + mx) / (2 * (mx - mn)) * maxTT)%R) by (field; lra).
  split; [exact D|]. split; intros H0.
  - assert (Z : ((mn + mx) / (2 * (mx - mn)) * maxTT = 0)%R) by (rewrite <- D; lra).
    apply Rmult_integral in Z as [Z|Z]; [|lra]. unfold Rdiv in Z. apply Rmult_integral in Z as [Z|Z]; [exact Z|].
    apply Rinv_neq_0_compat in Z; [contradiction|]. lra.
  - assert (Z : ((mn + mx) / (2 * (mx - mn)) * maxTT = 0)%R) by (rewrite H0; field; lra). lra.
Qed.
Print Assumptions C90_scale_to_refuted.
(** An empty range divides by zero. *)
Theorem C90_empty_range :
  forall (cfg : Cfg) (lim : RLim) (U : Type) (cast : R -> U) (maxTT : R) (M : nat) (v : list R) (result : list U) (m : R),
  vec_scale_to cast maxTT M v result m m = NonFin.
Proof.
  intros. unfold vec_scale_to. cbn [sdiv RScalar ssub sone]. rewrite Reqb_true by lra. reflexivity.
Qed.
Print Assumptions C90_empty_range.
Example C90_hypotheses_met : repV 1 [/ 2]%R (fun _ => / 2)%R /\ (0 < 1)%R /\ (0 < 255)%R.
Proof. split; [split; [reflexivity|]; intros [|] Hi; [reflexivity|lia]|]. split; lra. Qed.
