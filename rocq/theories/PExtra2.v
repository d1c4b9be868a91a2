(** Properties C108 (random filling), C109 (building frusta), C110 (small helpers). *)
From Verif Require Import PVector2 PMatrix4 PExtra PMisc MFrustum PFrustum PAabb.
Local Open Scope nat_scope.

(** C108.  set_random( seed ): the k-th rand() of the sequence -- the one srand( seed )
    starts when seed >= 0, the current one otherwise -- goes to the k-th component
    (matrix: cell in row order), mapped affinely from [0, RAND_MAX] to [-1, 1]; so the
    result depends on nothing else, and seeds that give the same sequence give the
    same contents. *)
Lemma mat_set_random_spec {cfg : Cfg} {T : Type} {ST : Scalar T} rnd RAND_MAX (ofZ : Z -> T) M N (m : list T) f seed s q :
  repM M N m f ->
  let s0 := if (0 <=? seed)%Z then (seed, 0) else s in
  (forall r c, r < M -> c < N -> sdiv (ofZ (rnd (fst s0) (snd s0 + (r * N + c))%nat)) (ofZ RAND_MAX) = Ok (q r c)) ->
  returns (mat_set_random rnd RAND_MAX ofZ M N m seed s) (fun '(x, s') =>
    repM M N x (fun r c => sadd (sopp sone) (smul stwo (q r c))) /\ s' = (fst s0, snd s0 + M * N)).
Proof.
  intros Hm s0 Hq. unfold mat_set_random. fold s0.
  set (g := fun r c => sadd (sopp sone) (smul stwo (q r c))).
  eapply returns_impl; [apply (for_inv (fun i '(x, s') => repM M N x (fun r c => if r <? i then g r c else f r c) /\
     s' = (fst s0, snd s0 + i * N))); [lia| |]|].
  - split; [eapply repM_ext; [exact Hm|]; reflexivity|]. rewrite Nat.add_0_r. destruct s0; reflexivity.
  - intros r [x s'] Hr [Hx ->].
    eapply returns_impl; [apply (for_inv (fun j '(x, s') => repM M N x (fun r' c => if (r' <? r) || ((r' =? r) && (c <? j)) then g r' c else f r' c) /\
       s' = (fst s0, snd s0 + (r * N + j)))); [lia| |]|].
    + split; [|rewrite Nat.add_0_r; reflexivity]. eapply repM_ext; [exact Hx|]. intros r' c' _ _; cbv beta.
      rewrite andb_false_r, orb_false_r. reflexivity.
    + intros c [y s'] Hc [Hy ->]. cbn [rand_next fst snd]. rewrite Hq by lia. cbn [bind]. fold (g r c).
      destruct (mat_put_rep M N y _ r c (g r c) Hy ltac:(lia) ltac:(lia)) as (y' & E & H). rewrite E. cbn [bind].
      apply returns_ok. split; [|f_equal; lia]. eapply repM_ext; [exact H|]. intros r' c' Hr' Hc'; cbv beta.
      destruct (Nat.eqb_spec r' r) as [->|Ne], (Nat.eqb_spec c' c) as [->|Nc]; cbn [andb orb]; rewrite ?orb_false_r; try reflexivity.
      * rewrite Nat.ltb_irrefl. destruct (Nat.ltb_spec c (S c)); [reflexivity|lia].
      * rewrite Nat.ltb_irrefl. cbn [orb]. destruct (Nat.ltb_spec c' c), (Nat.ltb_spec c' (S c)); try reflexivity; lia.
    + intros [y s'] [Hy ->]. split; [|f_equal; lia]. eapply repM_ext; [exact Hy|]. intros r' c' Hr' Hc'; cbv beta.
      destruct (Nat.ltb_spec r' r), (Nat.ltb_spec r' (S r)), (Nat.eqb_spec r' r), (Nat.ltb_spec c' N); cbn; try reflexivity; lia.
  - intros [x s'] [Hx ->]. split; [|reflexivity]. eapply repM_ext; [exact Hx|]. intros r c Hr Hc; cbv beta.
    destruct (Nat.ltb_spec r M); [reflexivity|lia].
Qed.

Theorem C108_set_random :
  forall (cfg : Cfg) (lim : RLim) (rnd : Z -> nat -> Z) (RAND_MAX : Z) (M N : nat) (v m : list R) (seed : Z) (s : rng),
  (0 < RAND_MAX)%Z -> length v = M -> length m = M * N ->
  let start := if (0 <=? seed)%Z then (seed, 0) else s in
  let draw k := rnd (fst start) (snd start + k) in
  let scaled k := (2 * (IZR (draw k) / IZR RAND_MAX) - 1)%R in
  (exists r, vec_set_random rnd RAND_MAX IZR M v seed s = Ok (r, (fst start, snd start + M)) /\ repV M r scaled) /\
  (exists x, mat_set_random rnd RAND_MAX IZR M N m seed s = Ok (x, (fst start, snd start + M * N)) /\
     repM M N x (fun i j => scaled (i * N + j))) /\
  (forall k, draw k = 0%Z -> scaled k = (-1)%R) /\ (forall k, draw k = RAND_MAX -> scaled k = 1%R) /\
  (forall k, (0 <= draw k <= RAND_MAX)%Z -> (-1 <= scaled k <= 1)%R).
Proof.
  intros cfg lim rnd RM M N v m seed s HR Lv Lm start draw scaled.
  assert (P : (0 < IZR RM)%R) by (apply (IZR_lt 0); exact HR).
  destruct (mat_rep M N m Lm) as (f & Hm).
  split; [|split; [|split; [|split]]].
  - destruct (vec_set_random_spec rnd RM IZR M v _ seed s (fun k => (IZR (draw k) / IZR RM)%R) (repV_nth M v 0%R Lv)) as ([r st] & E & Hr & Hst).
    { intros i Hi. fold start. apply sdiv_R. lra. }
    fold start in Hst. subst st. exists r. split; [exact E|]. eapply repV_ext; [exact Hr|]. intros i Hi. unfold scaled. cbn. ring.
  - destruct (mat_set_random_spec rnd RM IZR M N m f seed s (fun i j => (IZR (draw (i * N + j)%nat) / IZR RM)%R) Hm) as ([x st] & E & Hx & Hst).
    { intros i j Hi Hj. fold start. apply sdiv_R. lra. }
    fold start in Hst. subst st. exists x. split; [exact E|]. eapply repM_ext; [exact Hx|]. intros i j Hi Hj. unfold scaled. cbn. ring.
  - intros k E. unfold scaled. rewrite E. unfold Rdiv. rewrite Rmult_0_l. lra.
  - intros k E. unfold scaled. rewrite E. unfold Rdiv. rewrite Rinv_r by lra. lra.
  - intros k [A B]. apply IZR_le in A, B. unfold scaled.
    assert (0 <= IZR (draw k) / IZR RM <= 1)%R; [|lra]. split.
    + apply Rmult_le_pos; [exact A|]. left; apply Rinv_0_lt_compat; assumption.
    + apply (Rmult_le_reg_r (IZR RM)); [assumption|]. unfold Rdiv. rewrite Rmult_assoc, Rinv_l by lra. lra.
Qed.
Print Assumptions C108_set_random.
Example C108_hypotheses_met : (0 < 32767)%Z /\ length [1; 2; 3; 4; 5; 6]%R = 2 * 3.
Proof. split; [lia|reflexivity]. Qed.

(** C109.  However a frustum is made -- default, six numbers, an array of six,
    copied, assigned, also to itself -- it holds the six given values, each under
    its own name. *)
Theorem C109_frustum_construction :
  forall (T : Type) (ST : Scalar T) (LT : Lit T) (l r b t n f : T) (old : list T),
  length old = 6 ->
  let fr := [l; r; b; t; n; f] in
  fr_set old l r b t n f = Ok fr /\ fr_of_values fr = Ok fr /\
  fr_assign old (Val fr) = Ok fr /\ fr_assign fr Self = Ok fr /\
  fr_default = [szero; szero; szero; szero; szero; szero] /\
  fr_DEFAULT = Ok [sopp sone; sone; sopp sone; sone; slit 1 10; slit 100 1] /\
  map (fr_side fr) [SLeft; SRight; SBottom; STop; SNear; SFar] = map Ok fr.
Proof.
  intros T ST LT l r b t n f old Lo fr.
  destruct old as [|o0 [|o1 [|o2 [|o3 [|o4 [|o5 [|]]]]]]]; try discriminate. repeat split.
Qed.
Print Assumptions C109_frustum_construction.
(** An array with fewer than six values is read past its end. *)
Theorem C109_short_array :
  forall (T : Type) (ST : Scalar T) (values : list T), length values < 6 -> fr_of_values values = UB.
Proof.
  intros T ST values H. destruct values as [|o0 [|o1 [|o2 [|o3 [|o4 [|o5 vs]]]]]]; try reflexivity. cbn in H. lia.
Qed.
Print Assumptions C109_short_array.
Example C109_hypotheses_met : length [1; 2; 3; 4; 5; 6] = 6 /\ length [1; 2] < 6.
Proof. split; [reflexivity|cbn; lia]. Qed.

(** C110.  The scalar comparison helpers: abs_less / abs_greater compare absolute
    values and are strict weak orders; util equals is the comparison with float
    epsilon; the free functions are the member functions. *)
Theorem C110_helpers :
  forall (cfg : Cfg) (lim : RLim) (a b c eps : R) (M : nat) (u v : list R) (fu fv : nat -> R),
  repV M u fu -> repV M v fv ->
  (math_abs_less a b = 1%R <-> (Rabs a < Rabs b)%R) /\ (math_abs_less a b = 0%R <-> (Rabs b <= Rabs a)%R) /\
  math_abs_greater a b = math_abs_less b a /\
  math_abs_less a a = 0%R /\
  (math_abs_less a b = 1%R -> math_abs_less b c = 1%R -> math_abs_less a c = 1%R) /\
  (util_equals eps a b = true <-> (Rabs (a - b) < eps)%R) /\
  (exists e, free_equals M u v = Ok e /\ (e = true <-> forall i, i < M -> (Rabs (fu i - fv i) < reps)%R)) /\
  (exists w, free_scale M a v = Ok w /\ repV M w (fun i => a * fv i)%R) /\
  free_dot M u v = Ok (rsum M (fun i => fu i * fv i)%R).
Proof.
  intros cfg lim a b c eps M u v fu fv Hu Hv. unfold math_abs_less, math_abs_greater, util_equals, free_equals, free_scale, free_dot.
  cbn [sltb sabs sone szero ssub RScalar].
  split; [destruct (Rltb_spec (Rabs a) (Rabs b)); split; intros; lra|].
  split; [destruct (Rltb_spec (Rabs a) (Rabs b)); split; intros; lra|].
  split; [reflexivity|]. split; [rewrite Rltb_false by lra; reflexivity|].
  split; [destruct (Rltb_spec (Rabs a) (Rabs b)), (Rltb_spec (Rabs b) (Rabs c)), (Rltb_spec (Rabs a) (Rabs c)); intros; lra|].
  split; [destruct (Rltb_spec (Rabs (a - b)) eps); split; intros; try lra; congruence|].
  split.
  { destruct (C45_equals cfg lim M u v fu fv reps Hu Hv) as (e & E & He & _). exists e. split; [exact E|exact He]. }
  split.
  { destruct (C35_vector_elementwise cfg R RScalar M v v fv fv a Hv Hv) as (_ & _ & _ & _ & _ & (w & E & H) & _).
    exists w. split; [exact E|]. eapply repV_ext; [exact H|]. intros i Hi. cbn. ring. }
  exact (proj1 (C36_dot_length_distance_values cfg lim M u v fu fv Hu Hv)).
Qed.
Print Assumptions C110_helpers.
Example C110_hypotheses_met : repV 2 [1; 2]%R (fun i => nth i [1; 2]%R 0%R).
Proof. apply (repV_nth 2 [1; 2]%R 0%R). reflexivity. Qed.

(** C65, the unit box: [0, 1]^3. *)
Theorem C65_unit_box :
  forall (cfg : Cfg) (lim : RLim) (p : R * R * R),
  exists b, box_unit = Ok b /\ box_getMin b = [0; 0; 0]%R /\ box_getMax b = [1; 1; 1]%R /\
    (box_isIn b (l3 p) = Ok true <-> forall k, k < 3 -> (0 <= comp k p <= 1)%R).
Proof.
  intros cfg lim p. exists (l3 (0, 0, 0)%R, l3 (1, 1, 1)%R). split; [destruct safe; reflexivity|]. split; [reflexivity|]. split; [reflexivity|].
  destruct (C65_isIn cfg lim (0, 0, 0)%R (1, 1, 1)%R p) as ((b & E & H) & _). rewrite E.
  assert (K : forall k, k < 3 -> comp k (0, 0, 0)%R = 0%R /\ comp k (1, 1, 1)%R = 1%R) by (intros [|[|[|k]]] Hk; try lia; split; reflexivity).
  split.
  - intros X. injection X as ->. intros k Hk. destruct (K k Hk) as [K0 K1]. pose proof (proj1 H eq_refl k Hk). rewrite K0, K1 in H0. exact H0.
  - intros X. f_equal. apply H. intros k Hk. destruct (K k Hk) as [K0 K1]. rewrite K0, K1. apply X, Hk.
Qed.
Print Assumptions C65_unit_box.
