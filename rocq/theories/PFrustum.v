(** Properties C68-C71: the viewing frustum. *)
From Verif Require Export MFrustum PAabb LMat4 Spec4.
Local Open Scope R_scope.

Ltac rcbn := cbn -[IZR Rplus Rminus Rmult Ropp Rdiv Rinv sin cos tan sqrt PI Rabs].

Section Proj.
Context {cfg : Cfg} {lim : RLim}.

Lemma sdiv_zero (x : R) : sdiv x 0 = NonFin.
Proof. cbn. rewrite Reqb_true by reflexivity. reflexivity. Qed.

Lemma lit44 a0 a1 a2 a3 a4 a5 a6 a7 a8 a9 a10 a11 a12 a13 a14 a15 (p : V3) :
  let '(x, y, z) := p in
  let m := [a0; a1; a2; a3; a4; a5; a6; a7; a8; a9; a10; a11; a12; a13; a14; a15] in
  let w := a3 * x + a7 * y + a11 * z + a15 in
  (w <> 0 -> mat_mul_hom 4 4 3 m (v3 p) =
    Ok (v3 ((a0 * x + a4 * y + a8 * z + a12) / w, (a1 * x + a5 * y + a9 * z + a13) / w,
            (a2 * x + a6 * y + a10 * z + a14) / w))) /\
  (w = 0 -> mat_mul_hom 4 4 3 m (v3 p) = NonFin).
Proof.
  destruct p as [[x y] z]. intros m w. unfold m.
  replace w with (0 + x * a3 + y * a7 + z * a11 + a15) by (unfold w; ring). split; intros H.
  - unfold mat_mul_hom, for_, mat_at, vat, vset; destruct safe; rcbn; rewrite !Reqb_false by exact H; rcbn; leq;
      unfold Rdiv; apply (f_equal (fun u => u * / (0 + x * a3 + y * a7 + z * a11 + a15))); ring.
  - unfold mat_mul_hom, for_, mat_at, vat, vset; destruct safe; rcbn; rewrite !Reqb_true by exact H; rcbn; reflexivity.
Qed.

Lemma compute_matrix_eq l r b t n f : l <> r -> b <> t -> n <> f ->
  fr_compute_matrix [l; r; b; t; n; f] =
  Ok [2 * n / (r - l); 0; 0; 0; 0; 2 * n / (t - b); 0; 0;
      (r + l) / (r - l); (t + b) / (t - b); - (f + n) / (f - n); -1;
      0; 0; - (2) * f * n / (f - n); 0].
Proof.
  intros H1 H2 H3. unfold fr_compute_matrix, mat_default, mat_identity, mat_fill, fr_compute_matrix_into, mat_put, mat_sq_put, fr_left, fr_right, fr_bottom, fr_top, fr_near, fr_far.
  destruct safe; rcbn; rewrite !Reqb_false by lra; reflexivity.
Qed.
Lemma compute_ortho_eq l r b t n f : l <> r -> b <> t -> n <> f ->
  fr_compute_ortho_matrix [l; r; b; t; n; f] =
  Ok [2 / (r - l); 0; 0; 0; 0; 2 / (t - b); 0; 0; 0; 0; - (2) / (f - n); 0;
      - (r + l) / (r - l); - (t + b) / (t - b); - (f + n) / (f - n); 1].
Proof.
  intros H1 H2 H3. unfold fr_compute_ortho_matrix, mat_default, mat_identity, mat_fill, fr_compute_ortho_matrix_into, mat_put, mat_sq_put, fr_left, fr_right, fr_bottom, fr_top, fr_near, fr_far.
  destruct safe; rcbn; rewrite !Reqb_false by lra; reflexivity.
Qed.

(** C68: where the perspective divide puts a point: its intersection with the
    near plane, in window coordinates running from -1 to 1. *)
Theorem C68_perspective_formula l r b t n f : l <> r -> b <> t -> n <> f ->
  exists m, fr_compute_matrix [l; r; b; t; n; f] = Ok m /\
  forall x y z,
  (z <> 0 -> exists qx qy qz, mat_mul_hom 4 4 3 m [x; y; z] = Ok [qx; qy; qz] /\
     (n / - z) * x = l + (qx + 1) / 2 * (r - l) /\
     (n / - z) * y = b + (qy + 1) / 2 * (t - b) /\
     (qz + 1) / 2 * (f - n) * - z = f * (- z - n)) /\
  (z = 0 -> mat_mul_hom 4 4 3 m [x; y; z] = NonFin).
Proof.
  intros H1 H2 H3. eexists; split; [apply compute_matrix_eq; assumption|]. intros x y z.
  match goal with |- context [mat_mul_hom 4 4 3 [?a0; ?a1; ?a2; ?a3; ?a4; ?a5; ?a6; ?a7; ?a8; ?a9; ?a10; ?a11; ?a12; ?a13; ?a14; ?a15] _] =>
    pose proof (lit44 a0 a1 a2 a3 a4 a5 a6 a7 a8 a9 a10 a11 a12 a13 a14 a15 (x, y, z)) as [L1 L2] end.
  cbv zeta in L1, L2. cbn [v3] in L1, L2. split; intros Hz.
  - do 3 eexists. split; [apply L1; lra|]. split; [|split]; field; lra.
  - apply L2. subst z. ring.
Qed.

(** C68: the frustum is mapped exactly onto the cube, the near plane to -1 and
    the far plane to 1; points outside are mapped outside. *)
Theorem C68_perspective_maps_frustum_onto_cube l r b t n f : l < r -> b < t -> 0 < n -> n < f ->
  exists m, fr_compute_matrix [l; r; b; t; n; f] = Ok m /\
  (forall p, snd p <> 0 -> exists q, mat_mul_hom 4 4 3 m (v3 p) = Ok (v3 q) /\
     (in_frustum l r b t n f p <-> in_cube q) /\
     (snd p = - n <-> snd q = -1) /\ (snd p = - f <-> snd q = 1)) /\
  (forall q, in_cube q -> exists p, in_frustum l r b t n f p /\ mat_mul_hom 4 4 3 m (v3 p) = Ok (v3 q)).
Proof.
  intros H1 H2 H3 H4. destruct (C68_perspective_formula l r b t n f) as (m & Em & F); try lra.
  exists m; split; [exact Em|].
  assert (K : forall x y z, z < 0 -> (exists k, 0 < k /\ k * z = - n /\ l <= k * x <= r /\ b <= k * y <= t) <->
     (l <= n / - z * x <= r /\ b <= n / - z * y <= t)).
  { intros x y z Hz. split.
    - intros (k & Hk & E & A & B). replace (n / - z) with k; [auto|]. apply (Rmult_eq_reg_r z); [|lra]. rewrite E. field. lra.
    - intros [A B]. exists (n / - z). split; [apply Rdiv_lt_0_compat; lra|]. split; [field; lra|auto]. }
  assert (W : forall u v s q : R, u < v -> s = u + (q + 1) / 2 * (v - u) -> (u <= s <= v <-> -1 <= q <= 1)).
  { intros u v s q Huv ->. split; intros [A B]; split; nra. }
  split.
  - intros [[x y] z]. cbn [snd v3]. intros Hz. destruct (F x y z) as [F1 _]. destruct (F1 Hz) as (qx & qy & qz & E & X & Y & Z).
    exists (qx, qy, qz). split; [exact E|]. cbn [snd in_frustum in_cube].
    assert (ZZ : -f <= z <= -n <-> -1 <= qz <= 1).
    { set (h := (qz + 1) / 2) in *. assert (Eh : qz = 2 * h - 1) by (unfold h; field). clearbody h.
      assert (Z' : (1 - h) * ((f - n) * - z) = n * (f + z)) by lra.
      assert (Z2 : h * ((f - n) * - z) = f * (- z - n)) by lra.
      split; intros [A B].
      - assert (0 < (f - n) * - z) by nra. assert (0 <= n * (f + z)) by nra. assert (0 <= f * (- z - n)) by nra.
        split; apply Rnot_lt_le; intro C; nra.
      - assert (D : (f - h * (f - n)) * - z = f * n) by lra. assert (0 < f - h * (f - n)) by nra. assert (0 < f * n) by nra.
        assert (z < 0) by (apply Rnot_le_lt; intro C; nra). assert (0 < (f - n) * - z) by nra.
        assert (0 <= n * (f + z)) by nra. assert (0 <= f * (- z - n)) by nra.
        split; apply Rnot_lt_le; intro C; nra. }
    split; [split|split; split].
    + intros [A B]. assert (z < 0) by lra. unfold in_pyramid in B. apply (K x y z) in B; [|assumption]. destruct B as [B1 B2].
      split; [apply (W l r _ _ H1 X); exact B1|]. split; [apply (W b t _ _ H2 Y); exact B2|]. apply ZZ, A.
    + intros (A & B & C). apply ZZ in C. assert (z < 0) by lra. split; [exact C|]. apply (K x y z); [assumption|].
      split; [apply (W l r _ _ H1 X); exact A|apply (W b t _ _ H2 Y); exact B].
    + intros ->. assert (S : (qz + 1) * ((f - n) * n) = 0) by lra. apply Rmult_integral in S as [S|S]; [lra|nra].
    + intros ->. assert (S : f * (- z - n) = 0) by lra. apply Rmult_integral in S as [S|S]; lra.
    + intros ->. assert (S : (qz - 1) * ((f - n) * f) = 0) by lra. apply Rmult_integral in S as [S|S]; [lra|nra].
    + intros ->. assert (S : n * (f + z) = 0) by lra. apply Rmult_integral in S as [S|S]; lra.
  - intros [[qx qy] qz] (A & B & C).
    (* the distance along the view direction *)
    set (d := f * n / (f - (qz + 1) / 2 * (f - n))).
    assert (D0 : n <= f - (qz + 1) / 2 * (f - n) <= f) by (split; nra).
    assert (D : n <= d <= f).
    { unfold d. split; apply (Rmult_le_reg_r (f - (qz + 1) / 2 * (f - n))); try lra; unfold Rdiv; rewrite (Rmult_assoc (f * n)), Rinv_l by lra; nra. }
    assert (Dq : (qz + 1) / 2 * (f - n) * d = f * (d - n)).
    { unfold d. field. lra. }
    exists ((l + (qx + 1) / 2 * (r - l)) * d / n, (b + (qy + 1) / 2 * (t - b)) * d / n, - d).
    destruct (F ((l + (qx + 1) / 2 * (r - l)) * d / n) ((b + (qy + 1) / 2 * (t - b)) * d / n) (- d)) as [F1 _].
    destruct F1 as (qx' & qy' & qz' & E & X & Y & Z); [lra|].
    split.
    + cbn [in_frustum]. split; [lra|]. apply K; [lra|].
      replace (n / - - d * ((l + (qx + 1) / 2 * (r - l)) * d / n)) with (l + (qx + 1) / 2 * (r - l)) by (field; lra).
      replace (n / - - d * ((b + (qy + 1) / 2 * (t - b)) * d / n)) with (b + (qy + 1) / 2 * (t - b)) by (field; lra).
      split; [apply (W l r _ qx H1 eq_refl); exact A|apply (W b t _ qy H2 eq_refl); exact B].
    + cbn [v3]. rewrite E.
      replace (n / - - d * ((l + (qx + 1) / 2 * (r - l)) * d / n)) with (l + (qx + 1) / 2 * (r - l)) in X by (field; lra).
      replace (n / - - d * ((b + (qy + 1) / 2 * (t - b)) * d / n)) with (b + (qy + 1) / 2 * (t - b)) in Y by (field; lra).
      leq.
      * apply (Rmult_eq_reg_r (r - l)); lra.
      * apply (Rmult_eq_reg_r (t - b)); lra.
      * apply (Rmult_eq_reg_r ((f - n) * d)); [|nra]. nra.
Qed.

(** C68: a degenerate frustum has no finite projection matrix. *)
Theorem C68_degenerate l r b t n f : l = r \/ b = t \/ n = f ->
  fr_compute_matrix [l; r; b; t; n; f] = NonFin.
Proof.
  intros H. unfold fr_compute_matrix, mat_default, mat_identity, mat_fill, fr_compute_matrix_into, mat_put, mat_sq_put, fr_left, fr_right, fr_bottom, fr_top, fr_near, fr_far.
  destruct safe; rcbn; destruct (Reqb_spec (r - l) 0); rcbn; try reflexivity;
  destruct (Reqb_spec (t - b) 0); rcbn; try reflexivity;
  destruct (Reqb_spec (f - n) 0); rcbn; try reflexivity; exfalso; lra.
Qed.
Example C68_hypotheses_met : (-1 < 1) /\ (-1 < 1) /\ (0 < / 10) /\ (/ 10 < 100) /\
  fr_DEFAULT = Ok [-1; 1; -1; 1; 1 / 10; 100 / 1].
Proof. repeat split; try lra. Qed.

(** C69: the orthographic matrix is affine (w stays 1) and maps the box onto
    the cube, near to -1 and far to 1. *)
Theorem C69_ortho_maps_box_onto_cube l r b t n f : l < r -> b < t -> n < f ->
  exists m, fr_compute_ortho_matrix [l; r; b; t; n; f] = Ok m /\
  (forall p, exists q, mat_mul_hom 4 4 3 m (v3 p) = Ok (v3 q) /\ mat_mul_vec 4 4 m (v3 p ++ [1]) = Ok (v3 q ++ [1]) /\
     (in_ortho l r b t n f p <-> in_cube q) /\
     (snd p = - n <-> snd q = -1) /\ (snd p = - f <-> snd q = 1)) /\
  (forall q, in_cube q -> exists p, in_ortho l r b t n f p /\ mat_mul_hom 4 4 3 m (v3 p) = Ok (v3 q)).
Proof.
  intros H1 H2 H3. eexists. split; [apply compute_ortho_eq; lra|].
  assert (L : forall x y z, mat_mul_hom 4 4 3 [2 / (r - l); 0; 0; 0; 0; 2 / (t - b); 0; 0; 0; 0; - (2) / (f - n); 0;
      - (r + l) / (r - l); - (t + b) / (t - b); - (f + n) / (f - n); 1] (v3 (x, y, z)) =
     Ok (v3 ((2 * x - (r + l)) / (r - l), (2 * y - (t + b)) / (t - b), (- 2 * z - (f + n)) / (f - n)))).
  { intros x y z.
    pose proof (lit44 (2 / (r - l)) 0 0 0 0 (2 / (t - b)) 0 0 0 0 (- (2) / (f - n)) 0
      (- (r + l) / (r - l)) (- (t + b) / (t - b)) (- (f + n) / (f - n)) 1 (x, y, z)) as [L _].
    rewrite L by lra. cbn [v3]. leq; field; lra. }
  assert (W : forall u v s, u < v -> (u <= s <= v <-> -1 <= (2 * s - (v + u)) / (v - u) <= 1)).
  { intros u v s Huv. assert (E : (2 * s - (v + u)) / (v - u) * (v - u) = 2 * s - (v + u)) by (field; lra).
    set (q := (2 * s - (v + u)) / (v - u)) in *. clearbody q. split; intros [A B]; split; nra. }
  split.
  - intros [[x y] z]. eexists. split; [apply L|]. split; [|split; [|cbn [snd]; split; split]].
    + unfold mat_mul_vec, for_, mat_at, vat, vset; destruct safe; rcbn; leq; field; lra.
    + cbn [in_ortho in_cube]. rewrite (W l r x H1), (W b t y H2).
      assert (-f <= z <= -n <-> n <= - z <= f) as -> by (split; intros []; split; lra).
      rewrite (W n f (- z) H3). replace (2 * - z - (f + n)) with (-2 * z - (f + n)) by ring. tauto.
    + intros ->. field; lra.
    + intros E. apply (f_equal (fun u => u * (f - n))) in E. unfold Rdiv in E. rewrite Rmult_assoc, Rinv_l in E by lra. lra.
    + intros ->. field; lra.
    + intros E. apply (f_equal (fun u => u * (f - n))) in E. unfold Rdiv in E. rewrite Rmult_assoc, Rinv_l in E by lra. lra.
  - intros [[qx qy] qz] (A & B & C).
    exists (l + (qx + 1) / 2 * (r - l), b + (qy + 1) / 2 * (t - b), - (n + (qz + 1) / 2 * (f - n))). split.
    + cbn [in_ortho]. repeat split; nra.
    + rewrite L. cbn [v3]. leq; field; lra.
Qed.
Theorem C69_degenerate l r b t n f : l = r \/ b = t \/ n = f ->
  fr_compute_ortho_matrix [l; r; b; t; n; f] = NonFin.
Proof.
  intros H. unfold fr_compute_ortho_matrix, mat_default, mat_identity, mat_fill, fr_compute_ortho_matrix_into, mat_put, mat_sq_put, fr_left, fr_right, fr_bottom, fr_top, fr_near, fr_far.
  destruct safe; rcbn; destruct (Reqb_spec (r - l) 0); rcbn; try reflexivity;
  destruct (Reqb_spec (t - b) 0); rcbn; try reflexivity;
  destruct (Reqb_spec (f - n) 0); rcbn; try reflexivity; exfalso; lra.
Qed.
Example C69_hypotheses_met : (-2 < 3) /\ (-1 < 1) /\ (-5 < 100).
Proof. lra. Qed.
End Proj.

Section Adjust.
Context {cfg : Cfg} {lim : RLim}.

Lemma adjust_near_eq l r b t n f n' : n <> 0 ->
  fr_adjust_near [l; r; b; t; n; f] n' = Ok [l * (n' / n); r * (n' / n); b * (n' / n); t * (n' / n); n'; f].
Proof.
  intros H. unfold fr_adjust_near, fr_near, fr_right, fr_left, fr_top, fr_bottom. rcbn.
  destruct (Reqb_spec n' n) as [->|Hne]; rcbn.
  - leq; field; exact H.
  - rewrite Reqb_false by exact H. reflexivity.
Qed.

(** C70: the near plane is the requested one, the far plane is kept, and the
    four side planes through the eye stay where they were. *)
Theorem C70_adjust_near_keeps_pyramid l r b t n f n' : 0 < n -> 0 < n' ->
  exists l' r' b' t', fr_adjust_near [l; r; b; t; n; f] n' = Ok [l'; r'; b'; t'; n'; f] /\
  (forall p, in_pyramid l r b t n p <-> in_pyramid l' r' b' t' n' p) /\
  (forall p, snd p <= - n -> snd p <= - n' -> in_frustum l r b t n f p <-> in_frustum l' r' b' t' n' f p).
Proof.
  intros H H'. do 4 eexists. split; [apply adjust_near_eq; lra|].
  assert (K : 0 < n' / n) by (apply Rdiv_lt_0_compat; assumption).
  assert (P : forall p, in_pyramid l r b t n p <-> in_pyramid (l * (n' / n)) (r * (n' / n)) (b * (n' / n)) (t * (n' / n)) n' p).
  { intros [[x y] z]. cbn [in_pyramid]. split; intros (k & Hk & E & [A1 A2] & B1 & B2).
    - exists (k * (n' / n)). split; [apply Rmult_lt_0_compat; assumption|].
      replace (k * (n' / n) * z) with (k * z * (n' / n)) by ring. rewrite E.
      replace (k * (n' / n) * x) with (k * x * (n' / n)) by ring. replace (k * (n' / n) * y) with (k * y * (n' / n)) by ring.
      split; [field; lra|]. repeat split; apply Rmult_le_compat_r; lra.
    - exists (k * (n / n')). assert (K' : 0 < n / n') by (apply Rdiv_lt_0_compat; assumption). split; [apply Rmult_lt_0_compat; assumption|].
      replace (k * (n / n') * z) with (k * z * (n / n')) by ring. rewrite E.
      replace (k * (n / n') * x) with (k * x * (n / n')) by ring. replace (k * (n / n') * y) with (k * y * (n / n')) by ring.
      split; [field; lra|].
      assert (S : forall u, u * (n' / n) * (n / n') = u) by (intros; field; lra).
      split; split.
      + rewrite <- (S l). apply Rmult_le_compat_r; lra.
      + rewrite <- (S r). apply Rmult_le_compat_r; lra.
      + rewrite <- (S b). apply Rmult_le_compat_r; lra.
      + rewrite <- (S t). apply Rmult_le_compat_r; lra. }
  split; [exact P|]. intros p A B. pose proof (P p) as Pp. destruct p as [[x y] z]. cbn [in_frustum snd] in *. rewrite Pp. split; intros [C D]; (split; [lra|exact D]).
Qed.

(** C70: any history of adjustments to non-zero near planes has the effect of
    the last one; in particular adjusting back restores the frustum. *)
Fixpoint adjust_all (fr : list R) (h : list R) : res (list R) :=
  match h with [] => Ok fr | n :: h => fr <- fr_adjust_near fr n ;; adjust_all fr h end.
Theorem C70_adjust_near_history l r b t n f h n' : n <> 0 -> Forall (fun x => x <> 0) h ->
  adjust_all [l; r; b; t; n; f] (h ++ [n']) = fr_adjust_near [l; r; b; t; n; f] n'.
Proof.
  intros Hn Hh. revert l r b t n Hn. induction Hh as [|x h Hx Hh IH]; intros l r b t n Hn; cbn [app adjust_all].
  - rewrite adjust_near_eq by exact Hn. reflexivity.
  - rewrite adjust_near_eq by exact Hn. cbn [bind]. rewrite IH by exact Hx. rewrite !adjust_near_eq by assumption.
    leq; field; split; assumption.
Qed.
Theorem C70_adjust_back_restores l r b t n f h : n <> 0 -> Forall (fun x => x <> 0) h ->
  adjust_all [l; r; b; t; n; f] (h ++ [n]) = Ok [l; r; b; t; n; f].
Proof.
  intros Hn Hh. rewrite C70_adjust_near_history by assumption. rewrite adjust_near_eq by exact Hn. leq; field; exact Hn.
Qed.
(** C70: with the near plane at the eye there is no pyramid to keep. *)
Theorem C70_near_zero l r b t f n' : n' <> 0 -> fr_adjust_near [l; r; b; t; 0; f] n' = NonFin.
Proof.
  intros H. unfold fr_adjust_near, fr_near. rcbn. rewrite Reqb_false by exact H. rcbn. rewrite Reqb_true by reflexivity. reflexivity.
Qed.
(** C70: jitter moves the window and keeps its size, near and far. *)
Theorem C70_jitter l r b t n f jx jy :
  exists fr, fr_apply_jitter [l; r; b; t; n; f] [jx; jy] = Ok fr /\ fr = [l + jx; r + jx; b + jy; t + jy; n; f] /\
  fr_get_width fr = fr_get_width [l; r; b; t; n; f] /\ fr_get_height fr = fr_get_height [l; r; b; t; n; f] /\
  fr_get_width [l; r; b; t; n; f] = Ok (Rabs (r - l)) /\ fr_get_height [l; r; b; t; n; f] = Ok (Rabs (t - b)).
Proof.
  eexists. split; [reflexivity|]. split; [reflexivity|]. unfold fr_get_width, fr_get_height, fr_right, fr_left, fr_top, fr_bottom. rcbn.
  replace (r + jx - (l + jx)) with (r - l) by ring. replace (t + jy - (b + jy)) with (t - b) by ring. auto.
Qed.
Example C70_hypotheses_met : 0 < / 10 /\ 0 < 3 /\ Forall (fun x => x <> 0) [2; -5] /\ in_pyramid (-1) 1 (-1) 1 (/ 10) (1, 2, -1).
Proof. repeat split; try lra. - repeat constructor; lra. - exists (/ 10). lra. Qed.

Lemma set_perspective_eq fr fovy aspect near far : length fr = 6%nat ->
  let top := tan (fovy * PI / 180 / 2) / 2 in
  fr_set_perspective fr fovy aspect near far = Ok [- top * aspect; top * aspect; - top; top; near; far].
Proof.
  intros H. destruct fr as [|a0 [|a1 [|a2 [|a3 [|a4 [|a5 [|]]]]]]]; try discriminate H.
  intros top. unfold fr_set_perspective, fr_top, fr_bottom. rcbn. rewrite Reqb_false by lra. rcbn.
  assert (E : tan (/ 2 * fovy * PI / (180 / 1)) * / 2 = top).
  { unfold top. replace (/ 2 * fovy * PI / (180 / 1)) with (fovy * PI / 180 / 2) by field. reflexivity. }
  rewrite E. reflexivity.
Qed.

(** C71, refuted: the window height does not depend on the near plane, so the
    field of view is the requested one for one near distance only. *)
Theorem C71_set_perspective_wrong_window_refuted :
  exists fovy aspect near far, 0 < fovy < 180 /\ 0 < aspect /\ 0 < near < far /\
  forall fr, length fr = 6%nat -> exists l r b t,
    fr_set_perspective fr fovy aspect near far = Ok [l; r; b; t; near; far] /\
    t <> near * tan (fovy * PI / 180 / 2).
Proof.
  exists 90, 1, 1, 2. repeat split; try lra. intros fr H. do 4 eexists. split; [apply set_perspective_eq; exact H|].
  replace (90 * PI / 180 / 2) with (PI / 4) by field. rewrite tan_PI4. lra.
Qed.
(** C71, what holds: the window is centred and has the requested aspect ratio
    and depth range; the vertical angle is right exactly for near = 1/2 (or a
    zero tangent).  Missing: the factor near in top. *)
Theorem C71_set_perspective_partial fr fovy aspect near far : length fr = 6%nat ->
  exists l r b t, fr_set_perspective fr fovy aspect near far = Ok [l; r; b; t; near; far] /\
  l + r = 0 /\ b + t = 0 /\ r - l = aspect * (t - b) /\ t = tan (fovy * PI / 180 / 2) / 2 /\
  (t = near * tan (fovy * PI / 180 / 2) <-> near = / 2 \/ tan (fovy * PI / 180 / 2) = 0).
Proof.
  intros H. do 4 eexists. split; [apply set_perspective_eq; exact H|]. set (T := tan _).
  split; [ring|]. split; [ring|]. split; [ring|]. split; [reflexivity|]. split.
  - intros E. assert (S : (near - / 2) * T = 0) by lra. apply Rmult_integral in S as [S|S]; [left; lra|right; exact S].
  - intros [-> | ->]; lra.
Qed.
Example C71_hypotheses_met : length (@fr_default R _) = 6%nat.
Proof. reflexivity. Qed.
End Adjust.
Print Assumptions C68_perspective_maps_frustum_onto_cube.
Print Assumptions C68_perspective_formula.
Print Assumptions C69_ortho_maps_box_onto_cube.
Print Assumptions C70_adjust_near_keeps_pyramid.
Print Assumptions C70_adjust_near_history.
Print Assumptions C71_set_perspective_partial.
