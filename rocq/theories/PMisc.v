(** Properties C77 and C78: low-pass filter, math helpers. *)
From Verif Require Export MMisc LVectorR.
From Coq Require Import Reals Lra Lia.
Local Open Scope R_scope.

(** ** Low-pass filter: specification. *)
(** What can happen to a filter. *)
Inductive lp_event := Add (x : R) | SetFactor (f : R).
(** The factor in force and the values added so far, newest first. *)
Fixpoint factor_after (f : R) (h : list lp_event) : R :=
  match h with [] => f | Add _ :: h => factor_after f h | SetFactor g :: h => factor_after g h end.
Fixpoint added (h : list lp_event) : list R :=
  match h with [] => [] | Add x :: h => added h ++ [x] | SetFactor _ :: h => added h end.
(** The weight of the j-th newest of [m] values: f^j (1-f^(j+1)) ... (1-f^(m-1)). *)
Definition lp_weight (f : R) (m j : nat) : R :=
  f ^ j * rprod (m - 1 - j) (fun k => 1 - f ^ (j + 1 + k)).

Section LP.
Context {lim : RLim}.

(** Running a history. *)
Fixpoint lp_run (M : nat) (s : lowpass R) (h : list lp_event) : res (lowpass R) :=
  match h with
  | [] => Ok s
  | Add x :: h => '(s, _) <- lp_add M s x ;; lp_run M s h
  | SetFactor f :: h => lp_run M (lp_set_smooth_factor s f) h
  end.

Lemma lp_trim_firstn M (l : list R) : lp_trim (length l) M l = firstn M l.
Proof.
  assert (G : forall fuel (l : list R), (length l <= fuel)%nat -> lp_trim fuel M l = firstn M l).
  { induction fuel as [|fuel IH]; intros d Hd; cbn [lp_trim].
    - destruct d; [|cbn in Hd; lia]. rewrite firstn_nil. reflexivity.
    - destruct (Nat.ltb_spec M (length d)) as [H|H].
      + assert (E : d <> []) by (intros ->; cbn in H; lia).
        destruct (exists_last E) as (d' & x & ->). rewrite removelast_last. rewrite app_length in *. cbn [length] in *.
        rewrite IH by lia. rewrite firstn_app. replace (M - length d')%nat with 0%nat by lia. rewrite firstn_O, app_nil_r. reflexivity.
      + rewrite firstn_all2 by lia. reflexivity. }
  apply G; lia.
Qed.

Lemma lp_add_eq M s x : (0 < M)%nat ->
  lp_add M s x = Ok ({| lp_data := firstn M (x :: lp_data s); lp_factor := lp_factor s;
                        lp_value := lp_blend (lp_factor s) (lp_factor s) x (firstn (M - 1) (lp_data s)) |},
                     lp_blend (lp_factor s) (lp_factor s) x (firstn (M - 1) (lp_data s))).
Proof.
  intros HM. unfold lp_add. cbv zeta. rewrite lp_trim_firstn. destruct M as [|M]; [lia|]. cbn [firstn]. rewrite Nat.sub_succ, Nat.sub_0_r. reflexivity.
Qed.
Lemma lp_run_app M s h1 h2 : lp_run M s (h1 ++ h2) = (s <- lp_run M s h1 ;; lp_run M s h2).
Proof.
  revert s; induction h1 as [|[x|f] h1 IH]; intros s; cbn [app lp_run]; [reflexivity| |apply IH].
  destruct (lp_add M s x) as [[s' v]| | |]; cbn [bind]; [apply IH|reflexivity..].
Qed.
Lemma firstn_cons_firstn {A} n (x : A) l : firstn n (x :: firstn n l) = firstn n (x :: l).
Proof. destruct n as [|n]; [reflexivity|]. rewrite !firstn_cons, firstn_firstn. do 2 f_equal. lia. Qed.
Lemma lp_run_state M h : (0 < M)%nat -> forall s l, lp_data s = firstn M l ->
  exists s', lp_run M s h = Ok s' /\ lp_data s' = firstn M (added h ++ l) /\ lp_factor s' = factor_after (lp_factor s) h.
Proof.
  intros HM. induction h as [|[x|f] h IH]; intros s l Hs; cbn [lp_run added factor_after].
  - exists s; repeat split; exact Hs.
  - rewrite lp_add_eq by exact HM. cbn [bind].
    match goal with |- context [lp_run M ?s1 h] => destruct (IH s1 (x :: l)) as (s' & E & D & F) end.
    + cbn [lp_data]. rewrite Hs. apply firstn_cons_firstn.
    + exists s'. split; [exact E|]. rewrite <- app_assoc. split; [exact D|exact F].
  - destruct (IH (lp_set_smooth_factor s f) l Hs) as (s' & E & D & F). exists s'. auto.
Qed.

Lemma rprod_ext n f g : (forall i, (i < n)%nat -> f i = g i) -> rprod n f = rprod n g.
Proof. induction n as [|n IH]; intros H; [reflexivity|]. cbn. rewrite IH by (intros; apply H; lia). rewrite H by lia. reflexivity. Qed.
Lemma rprod_nonneg n f : (forall i, (i < n)%nat -> 0 <= f i) -> 0 <= rprod n f.
Proof. induction n as [|n IH]; intros H; cbn; [lra|]. apply Rmult_le_pos; [apply IH; intros; apply H; lia|apply H; lia]. Qed.

(** The blending loop, from the back. *)
Lemma lp_blend_snoc f w v l x : lp_blend f w v (l ++ [x]) =
  lp_blend f w v l * (1 - w * f ^ length l) + x * (w * f ^ length l).
Proof.
  revert w v; induction l as [|y l IH]; intros w v; cbn [app lp_blend length pow sone smul ssub sadd RScalar].
  - rewrite !Rmult_1_r. reflexivity.
  - rewrite IH. replace (w * f * f ^ length l) with (w * (f * f ^ length l)) by ring. reflexivity.
Qed.
Lemma lp_weight_last f m : lp_weight f (S m) m = f ^ m.
Proof. unfold lp_weight. replace (S m - 1 - m)%nat with 0%nat by lia. cbn [rprod]. ring. Qed.
Lemma lp_weight_step f m j : (j < m)%nat -> lp_weight f (S m) j = lp_weight f m j * (1 - f ^ m).
Proof.
  intros H. unfold lp_weight. replace (S m - 1 - j)%nat with (S (m - 1 - j)) by lia. cbn [rprod].
  replace (j + 1 + (m - 1 - j))%nat with m by lia. ring.
Qed.
Lemma lp_blend_sum f x l :
  lp_blend f f x l = rsum (S (length l)) (fun j => lp_weight f (S (length l)) j * nth j (x :: l) 0).
Proof.
  induction l as [|y l IH] using rev_ind.
  - unfold lp_weight. cbn. ring.
  - rewrite lp_blend_snoc, IH. rewrite app_length. cbn [length]. rewrite Nat.add_1_r. set (m := S (length l)).
    cbn [rsum]. rewrite lp_weight_last. f_equal.
    + rewrite <- rsum_scal_r. apply rsum_ext. intros j Hj. rewrite lp_weight_step by exact Hj.
      assert (E : nth j (x :: l ++ [y]) 0 = nth j (x :: l) 0).
      { change (x :: l ++ [y]) with ((x :: l) ++ [y]). apply app_nth1. exact Hj. }
      rewrite E. change (f ^ m) with (f * f ^ length l). ring.
    + assert (E : nth m (x :: l ++ [y]) 0 = y) by (unfold m; cbn [nth]; rewrite app_nth2 by lia; rewrite Nat.sub_diag; reflexivity).
      rewrite E. unfold m. cbn [pow]. ring.
Qed.
Lemma lp_weight_total f m : (0 < m)%nat -> rsum m (lp_weight f m) = 1.
Proof.
  induction m as [|m IH]; intros H; [lia|]. cbn [rsum]. rewrite lp_weight_last. destruct m as [|m].
  - cbn. ring.
  - rewrite (rsum_ext (S m) (lp_weight f (S (S m))) (fun j => lp_weight f (S m) j * (1 - f ^ S m))).
    + rewrite rsum_scal_r, IH by lia. ring.
    + intros j Hj. apply lp_weight_step, Hj.
Qed.
Lemma pow_unit f k : 0 <= f <= 1 -> 0 <= f ^ k <= 1.
Proof. intros H. induction k as [|k IH]; cbn [pow]; [lra|]. split; [apply Rmult_le_pos; lra|]. assert (f * f ^ k <= 1 * 1) by (apply Rmult_le_compat; lra). lra. Qed.
Lemma lp_weight_nonneg f m j : 0 <= f <= 1 -> 0 <= lp_weight f m j.
Proof.
  intros H. unfold lp_weight. apply Rmult_le_pos; [apply pow_unit, H|]. apply rprod_nonneg. intros i _. pose proof (pow_unit f (j + 1 + i) H). lra.
Qed.

(** C77: the value after any history is the weighted blend, with the current
    factor, of the last M added values; add returns it and get reports it. *)
Theorem C77_lowpass_blend M f0 v0 h x : (0 < M)%nat ->
  exists s s' v, lp_run M (lp_make f0 v0) h = Ok s /\ lp_add M s x = Ok (s', v) /\ lp_get s' = v /\
  (forall l, l = firstn M (x :: added h) ->
    v = rsum (length l) (fun j => lp_weight (factor_after f0 h) (length l) j * nth j l 0)).
Proof.
  intros HM. destruct (lp_run_state M h HM (lp_make f0 v0) []) as (s & E & D & F); [rewrite firstn_nil; reflexivity|].
  rewrite app_nil_r in D. cbn [lp_factor lp_make] in F.
  exists s. do 2 eexists. split; [exact E|]. split; [apply lp_add_eq, HM|]. split; [reflexivity|].
  intros l ->. rewrite F, D. rewrite lp_blend_sum.
  assert (EL : firstn M (x :: added h) = x :: firstn (M - 1) (firstn M (added h))).
  { destruct M as [|M]; [lia|]. rewrite firstn_cons, firstn_firstn. do 2 f_equal. lia. }
  rewrite EL. reflexivity.
Qed.
(** C77: it depends on the factor and the last M values only. *)
Theorem C77_lowpass_forgets M f0 v0 h f1 v1 h' x : (0 < M)%nat ->
  factor_after f0 h = factor_after f1 h' -> firstn (M - 1) (added h) = firstn (M - 1) (added h') ->
  exists s1 s2 t1 t2 v, lp_run M (lp_make f0 v0) h = Ok s1 /\ lp_run M (lp_make f1 v1) h' = Ok s2 /\
  lp_add M s1 x = Ok (t1, v) /\ lp_add M s2 x = Ok (t2, v).
Proof.
  intros HM HF HD. destruct (C77_lowpass_blend M f0 v0 h x HM) as (s1 & t1 & u1 & E1 & A1 & _ & V1).
  destruct (C77_lowpass_blend M f1 v1 h' x HM) as (s2 & t2 & u2 & E2 & A2 & _ & V2).
  exists s1, s2, t1, t2, u1. repeat split; auto. rewrite A2. do 2 f_equal.
  rewrite (V1 _ eq_refl), (V2 _ eq_refl), HF. destruct M as [|M]; [lia|]. rewrite Nat.sub_succ, Nat.sub_0_r in HD. cbn [firstn]. rewrite HD. reflexivity.
Qed.
(** C77: for factors in [0,1] the output stays between the smallest and the
    largest of those values, so a constant input is reproduced. *)
Theorem C77_lowpass_bounds M f0 v0 h x lo hi : (0 < M)%nat -> 0 <= factor_after f0 h <= 1 ->
  (forall y, In y (firstn M (x :: added h)) -> lo <= y <= hi) ->
  exists s s' v, lp_run M (lp_make f0 v0) h = Ok s /\ lp_add M s x = Ok (s', v) /\ lo <= v <= hi.
Proof.
  intros HM Hf Hb. destruct (C77_lowpass_blend M f0 v0 h x HM) as (s & s' & v & E & A & _ & V).
  exists s, s', v. split; [exact E|]. split; [exact A|]. rewrite (V _ eq_refl). set (l := firstn M (x :: added h)) in *. set (f := factor_after f0 h) in *.
  assert (L : (0 < length l)%nat) by (unfold l; destruct M; [lia|cbn; lia]).
  assert (W : forall c, c = rsum (length l) (fun j => lp_weight f (length l) j * c)) by (intros c; rewrite rsum_scal_r, lp_weight_total by exact L; ring).
  split; [rewrite (W lo)|rewrite (W hi)]; apply rsum_le; intros j Hj; apply Rmult_le_compat_l; try (apply lp_weight_nonneg, Hf);
    apply Hb, nth_In, Hj.
Qed.
(** C77: after M equal inputs the output equals the input, whatever the factor. *)
Theorem C77_lowpass_constant M f0 v0 h x : (0 < M)%nat ->
  (forall y, In y (firstn M (x :: added h)) -> y = x) ->
  exists s s', lp_run M (lp_make f0 v0) h = Ok s /\ lp_add M s x = Ok (s', x).
Proof.
  intros HM Hb. destruct (C77_lowpass_blend M f0 v0 h x HM) as (s & s' & v & E & A & _ & V).
  exists s, s'. split; [exact E|]. rewrite A. do 2 f_equal. rewrite (V _ eq_refl). set (l := firstn M (x :: added h)) in *.
  assert (L : (0 < length l)%nat) by (unfold l; destruct M; [lia|cbn; lia]).
  rewrite (rsum_ext _ _ (fun j => lp_weight (factor_after f0 h) (length l) j * x)) by (intros j Hj; rewrite (Hb (nth j l 0)) by (apply nth_In, Hj); reflexivity).
  rewrite rsum_scal_r, lp_weight_total by exact L. ring.
Qed.
(** C77: a window of no values has no newest value to read. *)
Theorem C77_lowpass_empty_window f0 v0 x : lp_add 0 (lp_make f0 v0) x = UB.
Proof. reflexivity. Qed.
Example C77_hypotheses_met : added [Add 1; SetFactor (/ 4); Add 2; Add 3] = [3; 2; 1] /\
  0 <= factor_after (/ 2) [Add 1; SetFactor (/ 4); Add 2; Add 3] <= 1 /\
  (exists s s', lp_run 3 (lp_make (/ 2) 0) [Add 1; SetFactor (/ 4); Add 2; Add 3] = Ok s /\ lp_add 3 s 5 = Ok (s', 5 * (1 - / 4) * (1 - / 4 * / 4) + 3 * / 4 * (1 - / 4 * / 4) + 2 * (/ 4 * / 4))).
Proof.
  split; [reflexivity|]. split; [cbn; lra|]. do 2 eexists. split; [reflexivity|]. unfold lp_add. cbn.
  match goal with |- Ok (?a, ?u) = Ok (_, ?w) => assert (E : u = w) by ring end. rewrite E. reflexivity.
Qed.

(** ** C78: math helpers. *)
Theorem C78_squared (a : R) : math_squared a = a * a.
Proof. unfold math_squared. cbn. destruct (Reqb_spec a 0) as [->|]; ring. Qed.
Lemma pythag_core a b : 0 < a -> a * sqrt (1 + b / a * (b / a)) = sqrt (a * a + b * b).
Proof.
  intros H. rewrite <- (sqrt_square a) at 1 by lra. rewrite <- sqrt_mult; [|nra|].
  - f_equal. field. lra.
  - pose proof (Rle_0_sqr (b / a)) as S. unfold Rsqr in S. lra.
Qed.
Theorem C78_pythag (a b : R) : math_pythag a b = Ok (sqrt (a * a + b * b)).
Proof.
  unfold math_pythag. cbn [sabs sltb seqb szero sone sadd smul RScalar].
  assert (SA : Rabs a * Rabs a = a * a) by (rewrite <- Rabs_mult; apply Rabs_pos_eq; nra).
  assert (SB : Rabs b * Rabs b = b * b) by (rewrite <- Rabs_mult; apply Rabs_pos_eq; nra).
  pose proof (Rabs_pos a). pose proof (Rabs_pos b). rewrite <- SA, <- SB. set (u := Rabs a) in *. set (v := Rabs b) in *. clearbody u v.
  assert (P : forall x, 0 <= 1 + x * x) by (intros x; pose proof (Rle_0_sqr x) as S; unfold Rsqr in S; lra).
  destruct (Rltb_spec v u) as [L|L].
  - rewrite sdiv_R by lra. cbn [bind]. rewrite C78_squared. rewrite ssqrt_R by apply P. cbn [bind]. rewrite pythag_core by lra. reflexivity.
  - destruct (Reqb_spec v 0) as [E|E].
    + subst v. assert (u = 0) by lra. subst u. replace (0 * 0 + 0 * 0) with 0 by ring. rewrite sqrt_0. reflexivity.
    + rewrite sdiv_R by lra. cbn [bind]. rewrite C78_squared. rewrite ssqrt_R by apply P. cbn [bind]. rewrite pythag_core by lra. rewrite Rplus_comm. reflexivity.
Qed.
Theorem C78_sign (a b : R) : (0 <= b -> math_sign a b = Rabs a) /\ (b < 0 -> math_sign a b = - Rabs a).
Proof. unfold math_sign; cbn. split; intros H; [rewrite Rleb_true|rewrite Rleb_false]; auto. Qed.
Example C78_hypotheses_met : math_pythag 3 4 = Ok 5 /\ math_pythag 0 0 = Ok 0 /\ math_sign 3 (-2) = -3.
Proof.
  rewrite !C78_pythag. split; [f_equal; replace (3 * 3 + 4 * 4) with (5 * 5) by ring; apply sqrt_square; lra|].
  split; [f_equal; replace (0 * 0 + 0 * 0) with 0 by ring; apply sqrt_0|].
  rewrite (proj2 (C78_sign 3 (-2))) by lra. rewrite Rabs_pos_eq by lra. reflexivity.
Qed.
End LP.
Print Assumptions C77_lowpass_blend.
Print Assumptions C77_lowpass_bounds.
Print Assumptions C78_pythag.
