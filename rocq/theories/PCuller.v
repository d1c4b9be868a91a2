(** Properties C72-C74: frustum culling. *)
From Verif Require Export PFrustum LVecProps2.
Local Open Scope R_scope.

(** The array of a plane. *)
Definition pl (h : hs) : list R := v3 (fst h) ++ [snd h].
Definition nscale (k : R) (h : hs) : hs := (scale3 k (fst h), k * snd h).

Lemma hval_nscale k h p : hval (nscale k h) p = k * hval h p.
Proof. destruct h as [[[a b] c] d], p as [[x y] z]. unfold hval; cbn. ring. Qed.

Section Cull.
Context {cfg : Cfg} {lim : RLim}.

Lemma normalize_plane_ok h : fst h <> zero3 -> fc_normalize_plane (pl h) = Ok (pl (nscale (/ len3R (fst h)) h)).
Proof.
  intros Hn. unfold fc_normalize_plane.
  assert (E : vec_sub_vector 3 (pl h) 0 = Ok (v3 (fst h))) by (destruct h as [[[a b] c] d]; reflexivity).
  rewrite E. cbn [bind]. rewrite vec_length_v3. cbn [bind].
  assert (L : len3R (fst h) <> 0) by (intros F; apply Hn, len3_zero, F).
  rewrite sdiv_R by exact L. cbn [bind].
  destruct h as [[[a b] c] d]. cbn [fst] in *. set (k := len3R _) in *. rcbn. unfold pl, nscale. rcbn. leq; unfold Rdiv; ring.
Qed.
Lemma normalize_plane_zero d : fc_normalize_plane (pl (zero3, d)) = NonFin.
Proof.
  unfold fc_normalize_plane. change (vec_sub_vector 3 (pl (zero3, d)) 0) with (Ok (v3 zero3)). cbn [bind].
  rewrite vec_length_v3. cbn [bind]. rewrite (proj2 (len3_zero zero3) eq_refl), sdiv_zero. reflexivity.
Qed.
Definition unit_hs (h : hs) : hs := nscale (/ len3R (fst h)) h.
Lemma unit_len h : fst h <> zero3 -> 0 < / len3R (fst h) /\ len3R (fst (unit_hs h)) = 1.
Proof.
  intros Hn. assert (L : len3R (fst h) <> 0) by (intros F; apply Hn, len3_zero, F). split.
  - apply Rinv_0_lt_compat. pose proof (len3_nonneg (fst h)). lra.
  - unfold unit_hs, nscale. cbn [fst]. apply len3_unit, L.
Qed.

Lemma setup_rows m A : repM 4 4 m A ->
  fc_setup m = (l <- fc_normalize_plane (pl (face A 1 0)) ;; r <- fc_normalize_plane (pl (face A (-1) 0)) ;;
    b <- fc_normalize_plane (pl (face A 1 1)) ;; t <- fc_normalize_plane (pl (face A (-1) 1)) ;;
    n <- fc_normalize_plane (pl (face A 1 2)) ;; f <- fc_normalize_plane (pl (face A (-1) 2)) ;;
    Ok (l, r, b, t, n, f)).
Proof.
  intros Hm. lit Hm. unfold fc_setup.
  assert (GR : forall i, (i < 4)%nat -> mat_get_row 4 4 [A 0 0; A 1 0; A 2 0; A 3 0; A 0 1; A 1 1; A 2 1; A 3 1; A 0 2; A 1 2; A 2 2; A 3 2; A 0 3; A 1 3; A 2 3; A 3 3]%nat i =
    Ok [A i 0; A i 1; A i 2; A i 3]%nat).
  { intros i Hi. unfold mat_get_row, mat_get_row_into, mat_at, vset, for_. destruct safe; cell4 i Hi; reflexivity. }
  rewrite !GR by lia. cbn [bind].
  assert (P : forall a b c d x y z w : R, vec_add 4 [a; b; c; d] [x; y; z; w] = Ok (pl ((a + 1 * x, b + 1 * y, c + 1 * z), d + 1 * w))).
  { intros. unfold pl. rcbn. rewrite !Rmult_1_l. reflexivity. }
  assert (M : forall a b c d x y z w : R, vec_sub 4 [a; b; c; d] [x; y; z; w] = Ok (pl ((a + -1 * x, b + -1 * y, c + -1 * z), d + -1 * w))).
  { intros. unfold pl. rcbn. leq; ring. }
  rewrite !P, !M. reflexivity.
Qed.
Lemma setup_ok m A : repM 4 4 m A -> proper_faces A ->
  exists cl, fc_setup m = Ok cl /\ fc_planes cl = map pl (map unit_hs (faces A)).
Proof.
  intros Hm HP. rewrite (setup_rows m A Hm). unfold proper_faces, faces in HP.
  repeat match goal with H : List.Forall _ (_ :: _) |- _ => apply Forall_cons_iff in H; destruct H end.
  rewrite !normalize_plane_ok by assumption. cbn [bind]. eexists. split; reflexivity.
Qed.
Lemma setup_bad m A : repM 4 4 m A -> ~ proper_faces A -> fc_setup m = NonFin.
Proof.
  intros Hm HP. rewrite (setup_rows m A Hm).
  assert (D : forall h : hs, fst h = zero3 \/ fst h <> zero3).
  { intros h. destruct (Req_dec (len3R (fst h)) 0) as [E|E]; [left; apply len3_zero, E|right; intros F; apply E, len3_zero, F]. }
  assert (Z : forall h : hs, fst h = zero3 -> fc_normalize_plane (pl h) = NonFin).
  { intros [n d] E. cbn in E; subst n. apply normalize_plane_zero. }
  unfold proper_faces, faces in HP.
  repeat match goal with |- context [fc_normalize_plane (pl ?h)] =>
    let E := fresh in destruct (D h) as [E|E]; [rewrite (Z h E); reflexivity|rewrite (normalize_plane_ok h E); cbn [bind]] end.
  exfalso. apply HP. repeat (constructor; [assumption|]). constructor.
Qed.

(** Walking the list of planes. *)
Lemma sphere_step_eq h c r vis :
  fc_sphere_step (pl h) (v3 c ++ [r]) vis =
  Ok (if Rleb (hval h c) (- r) then inr V_NONE else if Rltb (hval h c) r then inl V_PARTIAL else inl vis).
Proof.
  destruct h as [[[a b] e] d], c as [[x y] z]. unfold fc_sphere_step, hval. rcbn.
  destruct (Rleb _ _); [reflexivity|]. destruct (Rltb _ _); reflexivity.
Qed.
Lemma test_sphere_eq cl hl c r : fc_planes cl = map pl hl ->
  fc_test_sphere cl (v3 c ++ [r]) =
  Ok (if existsb (fun h => Rleb (hval h c) (- r)) hl then V_NONE
      else if existsb (fun h => Rltb (hval h c) r) hl then V_PARTIAL else V_FULL).
Proof.
  intros E. unfold fc_test_sphere. rewrite E. generalize V_FULL as vis. clear E.
  induction hl as [|h hl IH]; intros vis; cbn [map fc_steps existsb]; [reflexivity|].
  rewrite sphere_step_eq. cbn [bind]. destruct (Rleb (hval h c) (- r)); [reflexivity|].
  destruct (Rltb (hval h c) r); cbn [orb].
  - rewrite IH. destruct (existsb (fun h0 => Rleb _ _) hl); [reflexivity|]. destruct (existsb _ hl); reflexivity.
  - apply IH.
Qed.
Lemma existsb_false {A} (P : A -> bool) l : existsb P l = false -> forall x, In x l -> P x = false.
Proof.
  intros H x Hx. destruct (P x) eqn:E; [|reflexivity]. assert (existsb P l = true) by (apply existsb_exists; eauto). congruence.
Qed.

Lemma hval_diff h p c : hval h p = hval h c + dot3 (fst h) (sub3 p c).
Proof. destruct h as [[[a b] e] d], c as [[x y] z], p as [[x' y'] z']. unfold hval; cbn. ring. Qed.
Lemma ball_dot n p c r : len3R n <= 1 -> in_ball c r p -> - r <= dot3 n (sub3 p c) <= r.
Proof.
  intros Hn Hb. unfold in_ball, dist3 in Hb. pose proof (len3_cs n (sub3 p c)) as C. pose proof (len3_nonneg n). pose proof (len3_nonneg (sub3 p c)).
  apply Rabs_le_both. eapply Rle_trans; [exact C|]. nra.
Qed.

(** Soundness for any list of half-spaces whose normals are not longer than 1. *)
Lemma sphere_sound cl hl : fc_planes cl = map pl hl -> (forall h, In h hl -> len3R (fst h) <= 1) ->
  forall c r, exists v, fc_test_sphere cl (v3 c ++ [r]) = Ok v /\
  (v = V_NONE -> exists h, In h hl /\ forall p, in_ball c r p -> hval h p <= 0) /\
  (v = V_FULL -> forall p, in_ball c r p -> forall h, In h hl -> 0 <= hval h p).
Proof.
  intros E HL c r. rewrite (test_sphere_eq cl hl c r E). eexists; split; [reflexivity|].
  destruct (existsb (fun h => Rleb (hval h c) (- r)) hl) eqn:EN.
  - split; intros F; [|discriminate F]. apply existsb_exists in EN as (h & Hh & L). apply Rleb_iff in L.
    exists h; split; [exact Hh|]. intros p Hp. rewrite (hval_diff h p c). pose proof (ball_dot (fst h) p c r (HL h Hh) Hp). lra.
  - destruct (existsb (fun h => Rltb (hval h c) r) hl) eqn:EP; split; intros F; try discriminate F.
    intros p Hp h Hh. apply (existsb_false _ _ EP) in Hh as L. destruct (Rltb_spec (hval h c) r) as [|L']; [discriminate|].
    rewrite (hval_diff h p c). pose proof (ball_dot (fst h) p c r (HL h Hh) Hp). lra.
Qed.
(** With unit normals the two tests are exact, face by face. *)
Lemma sphere_exact cl hl : fc_planes cl = map pl hl -> (forall h, In h hl -> len3R (fst h) = 1) ->
  forall c r, 0 < r -> exists v, fc_test_sphere cl (v3 c ++ [r]) = Ok v /\
  (v = V_NONE <-> exists h, In h hl /\ forall p, in_ball c r p -> hval h p <= 0) /\
  (v = V_FULL <-> forall p, in_ball c r p -> forall h, In h hl -> 0 <= hval h p).
Proof.
  intros E HL c r Hr.
  destruct (sphere_sound cl hl E) with (c := c) (r := r) as (v & Ev & SN & SF); [intros h Hh; rewrite (HL h Hh); lra|].
  exists v; split; [exact Ev|]. rewrite (test_sphere_eq cl hl c r E) in Ev. injection Ev as Ev.
  (* the extreme points of the ball in the direction of a normal *)
  assert (X : forall h s, In h hl -> s = r \/ s = - r -> exists p, in_ball c r p /\ hval h p = hval h c + s).
  { intros h s Hh Hs. exists (add3 c (scale3 s (fst h))). assert (EE : sub3 (add3 c (scale3 s (fst h))) c = scale3 s (fst h)) by apply add3_sub3.
    split.
    - unfold in_ball, dist3. rewrite EE, len3_scale, (HL h Hh). destruct Hs as [-> | ->]; [|rewrite Rabs_Ropp]; rewrite Rabs_pos_eq by lra; lra.
    - rewrite (hval_diff h _ c), EE. f_equal. specialize (HL h Hh). apply len3_one_iff in HL.
      destruct h as [[[a b] e] d]. cbn in *. nra. }
  split; (split; [assumption|]).
  - intros (h & Hh & HN). destruct (X h r Hh (or_introl eq_refl)) as (p & Hp & Ep). specialize (HN p Hp).
    assert (existsb (fun h => Rleb (hval h c) (- r)) hl = true) as T.
    { apply existsb_exists. exists h; split; [exact Hh|]. apply Rleb_true. lra. }
    rewrite T in Ev. congruence.
  - intros HF. assert (D : forall h, In h hl -> r <= hval h c).
    { intros h Hh. destruct (X h (- r) Hh (or_intror eq_refl)) as (p & Hp & Ep). specialize (HF p Hp h Hh). lra. }
    destruct (existsb (fun h => Rleb (hval h c) (- r)) hl) eqn:EN.
    + apply existsb_exists in EN as (h & Hh & L). apply Rleb_iff in L. specialize (D h Hh). lra.
    + destruct (existsb (fun h => Rltb (hval h c) r) hl) eqn:EP; [|congruence].
      apply existsb_exists in EP as (h & Hh & L). apply Rltb_iff in L. specialize (D h Hh). lra.
Qed.

(** Boxes. *)
Definition mid3 (x0 x1 y0 y1 z0 z1 : R) : V3 := ((x0 + x1) / 2, (y0 + y1) / 2, (z0 + z1) / 2).
Definition rad (n : V3) (x0 x1 y0 y1 z0 z1 : R) : R :=
  let '(a, b, c) := n in Rabs (x1 - x0) / 2 * Rabs a + Rabs (y1 - y0) / 2 * Rabs b + Rabs (z1 - z0) / 2 * Rabs c.
Lemma span_abs a x0 x1 x : between_R x0 x1 x -> - (Rabs (x1 - x0) / 2 * Rabs a) <= a * (x - (x0 + x1) / 2) <= Rabs (x1 - x0) / 2 * Rabs a.
Proof.
  unfold between_R, Rmin, Rmax. intros H. destruct (Rle_dec x0 x1); unfold Rabs; destruct (Rcase_abs (x1 - x0)), (Rcase_abs a); nra.
Qed.
Lemma span_ext a x0 x1 s : s = 1 \/ s = -1 -> exists x, between_R x0 x1 x /\ a * (x - (x0 + x1) / 2) = s * (Rabs (x1 - x0) / 2 * Rabs a).
Proof.
  intros Hs. assert (B0 : between_R x0 x1 x0) by (split; [apply Rmin_l|apply Rmax_l]).
  assert (B1 : between_R x0 x1 x1) by (split; [apply Rmin_r|apply Rmax_r]).
  unfold Rabs. destruct Hs as [-> | ->]; destruct (Rcase_abs (x1 - x0)), (Rcase_abs a);
    first [exists x0; split; [exact B0|field]|exists x1; split; [exact B1|field]].
Qed.
Lemma test_plane_eq h x0 x1 y0 y1 z0 z1 :
  fc_test_plane (pl h) (v3 (mid3 x0 x1 y0 y1 z0 z1)) [Rabs (x1 - x0) / 2; Rabs (y1 - y0) / 2; Rabs (z1 - z0) / 2] =
  Ok (let d := hval h (mid3 x0 x1 y0 y1 z0 z1) in let n := rad (fst h) x0 x1 y0 y1 z0 z1 in
      if Rleb 0 (d - n) then V_FULL else if Rltb 0 (d + n) then V_PARTIAL else V_NONE).
Proof.
  destruct h as [[[a b] c] d]. unfold fc_test_plane, mid3, hval, pl, vec_to_hom, vset. cbv zeta.
  match goal with |- _ = Ok (if Rleb 0 (?D - _) then _ else _) => set (DD := D) end.
  assert (ED : DD = 0 + a * ((x0 + x1) / 2) + b * ((y0 + y1) / 2) + c * ((z0 + z1) / 2) + d * 1) by (unfold DD; cbn; ring).
  rewrite ED. clearbody DD. destruct safe; reflexivity.
Qed.
Lemma test_aabb_eq cl hl x0 x1 y0 y1 z0 z1 : fc_planes cl = map pl hl ->
  let D := fun h => hval h (mid3 x0 x1 y0 y1 z0 z1) in let N := fun h : hs => rad (fst h) x0 x1 y0 y1 z0 z1 in
  fc_test_aabb cl [x0; x1] [y0; y1] [z0; z1] =
  Ok (if existsb (fun h => negb (Rleb 0 (D h - N h)) && negb (Rltb 0 (D h + N h))) hl then V_NONE
      else if existsb (fun h => negb (Rleb 0 (D h - N h))) hl then V_PARTIAL else V_FULL).
Proof.
  intros E D N. unfold fc_test_aabb. rewrite E. unfold vat, vec_set3.
  set (body := fun (p middle extent : list R) (result : visibility) => v <- fc_test_plane p middle extent ;;
      Ok (match v with V_FULL => inl result | V_PARTIAL => inl V_PARTIAL | V_NONE => inr V_NONE end)).
  assert (G : forall vis, fc_steps (fun p => body p (v3 (mid3 x0 x1 y0 y1 z0 z1)) [Rabs (x1 - x0) / 2; Rabs (y1 - y0) / 2; Rabs (z1 - z0) / 2]) (map pl hl) vis =
    Ok (if existsb (fun h => negb (Rleb 0 (D h - N h)) && negb (Rltb 0 (D h + N h))) hl then V_NONE
      else if existsb (fun h => negb (Rleb 0 (D h - N h))) hl then V_PARTIAL else vis)).
  { clear E. induction hl as [|h hl IH]; intros vis; cbn [map fc_steps existsb]; [reflexivity|].
    unfold body at 1. rewrite test_plane_eq. cbn [bind]. cbv zeta. fold (D h) (N h).
    destruct (Rleb 0 (D h - N h)); cbn [negb andb orb]; [apply IH|].
    destruct (Rltb 0 (D h + N h)); cbn [negb andb orb]; [|reflexivity].
    rewrite IH. destruct (existsb (fun h0 => _ && _) hl); [reflexivity|]. destruct (existsb _ hl); reflexivity. }
  specialize (G V_FULL). unfold body, mid3 in G. unfold Rdiv in G. destruct safe; cbn -[map fc_steps fc_test_plane]; exact G.
Qed.
Lemma hval_mid h x0 x1 y0 y1 z0 z1 p : in_span x0 x1 y0 y1 z0 z1 p ->
  hval h (mid3 x0 x1 y0 y1 z0 z1) - rad (fst h) x0 x1 y0 y1 z0 z1 <= hval h p <= hval h (mid3 x0 x1 y0 y1 z0 z1) + rad (fst h) x0 x1 y0 y1 z0 z1.
Proof.
  destruct h as [[[a b] c] d], p as [[x y] z]. intros (X & Y & Z). apply (span_abs a) in X. apply (span_abs b) in Y. apply (span_abs c) in Z.
  unfold hval, mid3, rad. cbn [fst snd dot3]. lra.
Qed.
Lemma hval_mid_ext h x0 x1 y0 y1 z0 z1 s : s = 1 \/ s = -1 -> exists p, in_span x0 x1 y0 y1 z0 z1 p /\
  hval h p = hval h (mid3 x0 x1 y0 y1 z0 z1) + s * rad (fst h) x0 x1 y0 y1 z0 z1.
Proof.
  destruct h as [[[a b] c] d]. intros Hs. destruct (span_ext a x0 x1 s Hs) as (x & X & EX). destruct (span_ext b y0 y1 s Hs) as (y & Y & EY).
  destruct (span_ext c z0 z1 s Hs) as (z & Z & EZ). exists (x, y, z). split; [split; [exact X|split; [exact Y|exact Z]]|].
  unfold hval, mid3, rad. cbn [fst snd dot3]. lra.
Qed.
(** The box test is exact, face by face, whatever the lengths of the normals. *)
Lemma aabb_exact cl hl : fc_planes cl = map pl hl ->
  forall x0 x1 y0 y1 z0 z1, exists v, fc_test_aabb cl [x0; x1] [y0; y1] [z0; z1] = Ok v /\
  (v = V_NONE <-> exists h, In h hl /\ (exists p, in_span x0 x1 y0 y1 z0 z1 p /\ hval h p < 0) /\ forall p, in_span x0 x1 y0 y1 z0 z1 p -> hval h p <= 0) /\
  (v = V_FULL <-> forall p, in_span x0 x1 y0 y1 z0 z1 p -> forall h, In h hl -> 0 <= hval h p).
Proof.
  intros E x0 x1 y0 y1 z0 z1. pose proof (test_aabb_eq cl hl x0 x1 y0 y1 z0 z1 E) as T. cbv zeta in T. rewrite T. clear T. eexists. split; [reflexivity|].
  set (D := fun h : hs => hval h (mid3 x0 x1 y0 y1 z0 z1)). set (N := fun h : hs => rad (fst h) x0 x1 y0 y1 z0 z1).
  match goal with |- context [existsb ?f hl] => set (P1 := f) end.
  match goal with |- context [if existsb P1 hl then _ else if existsb ?f hl then _ else _] => set (P2 := f) end.
  assert (H1 : existsb P1 hl = true <-> exists h, In h hl /\ (exists p, in_span x0 x1 y0 y1 z0 z1 p /\ hval h p < 0) /\ forall p, in_span x0 x1 y0 y1 z0 z1 p -> hval h p <= 0).
  { rewrite existsb_exists. split; intros (h & Hh & HP); exists h; (split; [exact Hh|]).
    - unfold P1 in HP. destruct (Rleb_spec 0 (hval h (mid3 x0 x1 y0 y1 z0 z1) - rad (fst h) x0 x1 y0 y1 z0 z1)) as [|Q1]; [discriminate|].
      destruct (Rltb_spec 0 (hval h (mid3 x0 x1 y0 y1 z0 z1) + rad (fst h) x0 x1 y0 y1 z0 z1)) as [|Q2]; [discriminate|]. split.
      + destruct (hval_mid_ext h x0 x1 y0 y1 z0 z1 (-1) (or_intror eq_refl)) as (p & Hp & Ep). exists p. split; [exact Hp|lra].
      + intros p Hp. apply (hval_mid h) in Hp. lra.
    - destruct HP as [(p & Hp & Lp) HA]. unfold P1. apply (hval_mid h) in Hp.
      destruct (hval_mid_ext h x0 x1 y0 y1 z0 z1 1 (or_introl eq_refl)) as (q & Hq & Eq). specialize (HA q Hq).
      rewrite Rleb_false by lra. rewrite Rltb_false by lra. reflexivity. }
  assert (H2 : existsb P2 hl = false <-> forall p, in_span x0 x1 y0 y1 z0 z1 p -> forall h, In h hl -> 0 <= hval h p).
  { split.
    - intros EP p Hp h Hh. apply (existsb_false _ _ EP) in Hh. unfold P2 in Hh.
      destruct (Rleb_spec 0 (hval h (mid3 x0 x1 y0 y1 z0 z1) - rad (fst h) x0 x1 y0 y1 z0 z1)); [|discriminate].
      apply (hval_mid h) in Hp. lra.
    - intros HF. destruct (existsb P2 hl) eqn:EP; [|reflexivity]. apply existsb_exists in EP as (h & Hh & HP). unfold P2 in HP.
      destruct (hval_mid_ext h x0 x1 y0 y1 z0 z1 (-1) (or_intror eq_refl)) as (p & Hp & Ep). specialize (HF p Hp h Hh).
      rewrite Rleb_true in HP by lra. discriminate HP. }
  assert (H3 : existsb P1 hl = true -> existsb P2 hl = true).
  { intros X. apply existsb_exists in X as (h & Hh & HP). apply existsb_exists. exists h; split; [exact Hh|]. unfold P1 in HP. unfold P2.
    apply andb_prop in HP as [HP _]. exact HP. }
  rewrite <- H1, <- H2. destruct (existsb P1 hl) eqn:E1.
  - specialize (H3 eq_refl). rewrite H3. split; split; intros F; try congruence; discriminate.
  - destruct (existsb P2 hl) eqn:E2; split; split; intros F; try congruence; discriminate.
Qed.

(** The clip volume is the intersection of its faces. *)
Lemma face_val A s k p : hval (face A s k) p = row4 A 3 p + s * row4 A k p.
Proof. destruct p as [[x y] z]. unfold hval, face. cbn. ring. Qed.
Lemma faces_in A h : In h (faces A) <-> exists k, (k < 3)%nat /\ (h = face A 1 k \/ h = face A (-1) k).
Proof.
  unfold faces; cbn [In]. split.
  - intros [H|[H|[H|[H|[H|[H|[]]]]]]]; subst h; (exists 0%nat + exists 1%nat + exists 2%nat); (split; [lia|]); auto; fail.
  - intros (k & Hk & H). destruct k as [|[|[|k]]]; [| | |lia]; destruct H; subst; auto 10.
Qed.
Lemma in_clip_faces A p : in_clip A p <-> forall h, In h (faces A) -> 0 <= hval h p.
Proof.
  unfold in_clip. split.
  - intros H h Hh. apply faces_in in Hh as (k & Hk & [-> | ->]); rewrite face_val; specialize (H k Hk); lra.
  - intros H k Hk. assert (H1 := H (face A 1 k)). assert (H2 := H (face A (-1) k)). rewrite face_val in H1, H2.
    rewrite faces_in in H1, H2. pose proof (H1 (ex_intro _ k (conj Hk (or_introl eq_refl)))). pose proof (H2 (ex_intro _ k (conj Hk (or_intror eq_refl)))). lra.
Qed.
Lemma in_clip_open_faces A p : in_clip_open A p -> forall h, In h (faces A) -> 0 < hval h p.
Proof. intros H h Hh. apply faces_in in Hh as (k & Hk & [-> | ->]); rewrite face_val; specialize (H k Hk); lra. Qed.
Lemma unit_faces_pos A h p : proper_faces A -> In h (map unit_hs (faces A)) ->
  exists g k, In g (faces A) /\ 0 < k /\ hval h p = k * hval g p.
Proof.
  intros HP Hh. apply in_map_iff in Hh as (g & <- & Hg). exists g, (/ len3R (fst g)). split; [exact Hg|].
  unfold proper_faces in HP. rewrite List.Forall_forall in HP. split; [apply (unit_len g), HP, Hg|apply hval_nscale].
Qed.
Lemma unit_faces_len A h : proper_faces A -> In h (map unit_hs (faces A)) -> len3R (fst h) = 1.
Proof.
  intros HP Hh. apply in_map_iff in Hh as (g & <- & Hg). unfold proper_faces in HP. rewrite List.Forall_forall in HP. apply unit_len, HP, Hg.
Qed.
Lemma unit_faces_clip A p : proper_faces A -> (in_clip A p <-> forall h, In h (map unit_hs (faces A)) -> 0 <= hval h p).
Proof.
  intros HP. rewrite in_clip_faces. split; intros H.
  - intros h Hh. destruct (unit_faces_pos A h p HP Hh) as (g & k & Hg & Hk & ->). specialize (H g Hg). nra.
  - intros g Hg. assert (Hu : In (unit_hs g) (map unit_hs (faces A))) by (apply in_map, Hg). specialize (H _ Hu).
    unfold unit_hs in H. rewrite hval_nscale in H. unfold proper_faces in HP. rewrite List.Forall_forall in HP. destruct (unit_len g (HP g Hg)) as [K _]. nra.
Qed.

(** C72: spheres. *)
Theorem C72_sphere_culling_sound m A : repM 4 4 m A -> proper_faces A ->
  exists cl, fc_setup m = Ok cl /\
  forall c r, exists v, fc_test_sphere cl (v3 c ++ [r]) = Ok v /\
  (v = V_NONE -> forall p, in_ball c r p -> ~ in_clip_open A p) /\
  (v = V_FULL -> forall p, in_ball c r p -> in_clip A p) /\
  (forall p, in_ball c r p -> in_clip_open A p -> v <> V_NONE).
Proof.
  intros Hm HP. destruct (setup_ok m A Hm HP) as (cl & Ec & Ep). exists cl; split; [exact Ec|]. intros c r.
  destruct (sphere_sound cl _ Ep) with (c := c) (r := r) as (v & Ev & SN & SF); [intros h Hh; rewrite (unit_faces_len A h HP Hh); lra|].
  exists v; split; [exact Ev|].
  assert (S1 : v = V_NONE -> forall p, in_ball c r p -> ~ in_clip_open A p).
  { intros F p Hp O. destruct (SN F) as (h & Hh & L). specialize (L p Hp).
    destruct (unit_faces_pos A h p HP Hh) as (g & k & Hg & Hk & E). pose proof (in_clip_open_faces A p O g Hg). nra. }
  split; [exact S1|]. split; [|intros p Hp O F; exact (S1 F p Hp O)].
  intros F p Hp. apply (unit_faces_clip A p HP). exact (SF F p Hp).
Qed.
(** C72: for balls of positive radius the answer is exact face by face: FULL
    exactly when the ball is inside the clip volume, NONE exactly when some face
    has the whole ball on its outer side. *)
Theorem C72_sphere_culling_exact m A : repM 4 4 m A -> proper_faces A ->
  exists cl, fc_setup m = Ok cl /\
  forall c r, 0 < r -> exists v, fc_test_sphere cl (v3 c ++ [r]) = Ok v /\
  (v = V_NONE <-> exists h, In h (faces A) /\ forall p, in_ball c r p -> hval h p <= 0) /\
  (v = V_FULL <-> forall p, in_ball c r p -> in_clip A p).
Proof.
  intros Hm HP. destruct (setup_ok m A Hm HP) as (cl & Ec & Ep). exists cl; split; [exact Ec|]. intros c r Hr.
  destruct (sphere_exact cl _ Ep) with (c := c) (r := r) as (v & Ev & SN & SF); [intros h Hh; exact (unit_faces_len A h HP Hh)|exact Hr|].
  exists v; split; [exact Ev|]. rewrite SN, SF. split.
  - split; intros (h & Hh & H).
    + apply in_map_iff in Hh as (g & <- & Hg). exists g; split; [exact Hg|]. intros p Hp. specialize (H p Hp).
      unfold unit_hs in H. rewrite hval_nscale in H. unfold proper_faces in HP. rewrite List.Forall_forall in HP. destruct (unit_len g (HP g Hg)) as [K _]. nra.
    + exists (unit_hs h). split; [apply in_map, Hh|]. intros p Hp. specialize (H p Hp). unfold unit_hs. rewrite hval_nscale.
      unfold proper_faces in HP. rewrite List.Forall_forall in HP. destruct (unit_len h (HP h Hh)) as [K _]. nra.
  - split; intros H p Hp; [apply (unit_faces_clip A p HP)|apply (unit_faces_clip A p HP)]; auto.
Qed.
(** C72: a degenerate face (zero normal) makes the setup divide by zero. *)
Theorem C72_degenerate_face m A : repM 4 4 m A -> ~ proper_faces A -> fc_setup m = NonFin.
Proof. exact (setup_bad m A). Qed.

(** C73: boxes. *)
Theorem C73_box_culling_sound m A : repM 4 4 m A -> proper_faces A ->
  exists cl, fc_setup m = Ok cl /\
  forall x0 x1 y0 y1 z0 z1, exists v, fc_test_aabb cl [x0; x1] [y0; y1] [z0; z1] = Ok v /\
  (v = V_NONE -> forall p, in_span x0 x1 y0 y1 z0 z1 p -> ~ in_clip_open A p) /\
  (v = V_FULL <-> forall p, in_span x0 x1 y0 y1 z0 z1 p -> in_clip A p) /\
  (v = V_NONE <-> exists h, In h (faces A) /\ (exists p, in_span x0 x1 y0 y1 z0 z1 p /\ hval h p < 0) /\
                   forall p, in_span x0 x1 y0 y1 z0 z1 p -> hval h p <= 0).
Proof.
  intros Hm HP. destruct (setup_ok m A Hm HP) as (cl & Ec & Ep). exists cl; split; [exact Ec|]. intros.
  destruct (aabb_exact cl _ Ep x0 x1 y0 y1 z0 z1) as (v & Ev & SN & SF). exists v; split; [exact Ev|].
  assert (HU : forall g, In g (faces A) -> 0 < / len3R (fst g)).
  { intros g Hg. unfold proper_faces in HP. rewrite List.Forall_forall in HP. apply (unit_len g (HP g Hg)). }
  split; [|split].
  - intros F p Hp O. apply SN in F as (h & Hh & _ & L). specialize (L p Hp).
    destruct (unit_faces_pos A h p HP Hh) as (g & k & Hg & Hk & E). pose proof (in_clip_open_faces A p O g Hg). nra.
  - rewrite SF. split; intros H p Hp; apply (unit_faces_clip A p HP); auto.
  - rewrite SN. split; intros (h & Hh & (p & Hp & L) & H).
    + apply in_map_iff in Hh as (g & <- & Hg). specialize (HU g Hg). exists g; split; [exact Hg|]. split.
      * exists p; split; [exact Hp|]. unfold unit_hs in L. rewrite hval_nscale in L. nra.
      * intros q Hq. specialize (H q Hq). unfold unit_hs in H. rewrite hval_nscale in H. nra.
    + exists (unit_hs h). specialize (HU h Hh). split; [apply in_map, Hh|]. split.
      * exists p; split; [exact Hp|]. unfold unit_hs. rewrite hval_nscale. nra.
      * intros q Hq. specialize (H q Hq). unfold unit_hs. rewrite hval_nscale. nra.
Qed.

(** The view volume of a perspective projection. *)
Definition perspA (l r b t n f : R) : nat -> nat -> R := cells 4
  [2 * n / (r - l); 0; 0; 0; 0; 2 * n / (t - b); 0; 0;
   (r + l) / (r - l); (t + b) / (t - b); - (f + n) / (f - n); -1;
   0; 0; - (2) * f * n / (f - n); 0].
Lemma persp_rep l r b t n f : l <> r -> b <> t -> n <> f ->
  exists m, fr_compute_matrix [l; r; b; t; n; f] = Ok m /\ repM 4 4 m (perspA l r b t n f).
Proof. intros. eexists. split; [apply compute_matrix_eq; assumption|]. apply repM_cells. reflexivity. Qed.
Lemma persp_rows l r b t n f x y z : l < r -> b < t -> n < f ->
  let A := perspA l r b t n f in
  row4 A 3 (x, y, z) = - z /\
  (row4 A 3 (x, y, z) + row4 A 0 (x, y, z)) * (r - l) = 2 * (n * x - l * - z) /\
  (row4 A 3 (x, y, z) - row4 A 0 (x, y, z)) * (r - l) = 2 * (r * - z - n * x) /\
  (row4 A 3 (x, y, z) + row4 A 1 (x, y, z)) * (t - b) = 2 * (n * y - b * - z) /\
  (row4 A 3 (x, y, z) - row4 A 1 (x, y, z)) * (t - b) = 2 * (t * - z - n * y) /\
  (row4 A 3 (x, y, z) + row4 A 2 (x, y, z)) * (f - n) = 2 * f * (- z - n) /\
  (row4 A 3 (x, y, z) - row4 A 2 (x, y, z)) * (f - n) = 2 * n * (f - - z).
Proof.
  intros. unfold A, row4, perspA, cells. cbn [nth Nat.mul Nat.add]. repeat split; field; lra.
Qed.
Lemma pos_cancel a k b : 0 < k -> a * k = b -> (0 <= a <-> 0 <= b) /\ (0 < a <-> 0 < b).
Proof.
  intros Hk <-. split; split; intros H; nra.
Qed.
Lemma persp_clip l r b t n f p : l < r -> b < t -> 0 < n -> n < f ->
  (in_clip (perspA l r b t n f) p <-> in_frustum l r b t n f p) /\
  (in_clip_open (perspA l r b t n f) p <-> in_frustum_open l r b t n f p).
Proof.
  intros H1 H2 H3 H4. destruct p as [[x y] z].
  destruct (persp_rows l r b t n f x y z H1 H2 H4) as (E3 & E0 & E0' & E1 & E1' & E2 & E2'). cbv zeta in *.
  apply pos_cancel in E0 as [P0 Q0], E0' as [P0' Q0'], E1 as [P1 Q1], E1' as [P1' Q1'], E2 as [P2 Q2], E2' as [P2' Q2']; try lra.
  set (A := perspA l r b t n f) in *. set (p := (x, y, z)) in *.
  destruct (pos_cancel (- z - n) (2 * f) (2 * f * (- z - n))) as [R2 T2]; [lra|ring|].
  destruct (pos_cancel (f - - z) (2 * n) (2 * n * (f - - z))) as [R2' T2']; [lra|ring|].
  assert (S : forall k, 0 < - z -> k * z = - n ->
    ((0 <= row4 A 3 p + row4 A 0 p <-> 0 <= k * x - l) /\ (0 < row4 A 3 p + row4 A 0 p <-> 0 < k * x - l)) /\
    ((0 <= row4 A 3 p - row4 A 0 p <-> 0 <= r - k * x) /\ (0 < row4 A 3 p - row4 A 0 p <-> 0 < r - k * x)) /\
    ((0 <= row4 A 3 p + row4 A 1 p <-> 0 <= k * y - b) /\ (0 < row4 A 3 p + row4 A 1 p <-> 0 < k * y - b)) /\
    ((0 <= row4 A 3 p - row4 A 1 p <-> 0 <= t - k * y) /\ (0 < row4 A 3 p - row4 A 1 p <-> 0 < t - k * y))).
  { intros k Hz Hk. assert (EE : n = k * - z) by lra.
    destruct (pos_cancel (k * x - l) (2 * - z) (2 * (n * x - l * - z))) as [a1 a2]; [lra|rewrite EE; ring|].
    destruct (pos_cancel (r - k * x) (2 * - z) (2 * (r * - z - n * x))) as [b1 b2]; [lra|rewrite EE; ring|].
    destruct (pos_cancel (k * y - b) (2 * - z) (2 * (n * y - b * - z))) as [c1 c2]; [lra|rewrite EE; ring|].
    destruct (pos_cancel (t - k * y) (2 * - z) (2 * (t * - z - n * y))) as [d1 d2]; [lra|rewrite EE; ring|].
    rewrite a1, a2, b1, b2, c1, c2, d1, d2. tauto. }
  rewrite <- R2 in P2. rewrite <- T2 in Q2. rewrite <- R2' in P2'. rewrite <- T2' in Q2'.
  clear P0 Q0 P0' Q0' P1 Q1 P1' Q1' R2 T2 R2' T2' E3. clearbody A.
  split; split.
  - intros H. pose proof (H 0%nat ltac:(lia)) as C0. pose proof (H 1%nat ltac:(lia)) as C1. pose proof (H 2%nat ltac:(lia)) as C2.
    assert (0 <= - z - n) by (apply P2; lra). assert (0 <= f - - z) by (apply P2'; lra).
    split; [lra|]. assert (Hz : 0 < - z) by lra. exists (n / - z). assert (Ek : n / - z * z = - n) by (field; lra).
    split; [apply Rdiv_lt_0_compat; lra|]. split; [exact Ek|]. destruct (S _ Hz Ek) as ([a1 _] & [b1 _] & [c1 _] & [d1 _]).
    assert (0 <= n / - z * x - l) by (apply a1; lra). assert (0 <= r - n / - z * x) by (apply b1; lra).
    assert (0 <= n / - z * y - b) by (apply c1; lra). assert (0 <= t - n / - z * y) by (apply d1; lra). repeat split; lra.
  - intros [[Z1 Z2] (k & Hk & Ek & [X1 X2] & Y1 & Y2)]. assert (Hz : 0 < - z) by lra. destruct (S _ Hz Ek) as ([a1 _] & [b1 _] & [c1 _] & [d1 _]).
    assert (0 <= row4 A 3 p + row4 A 0 p) by (apply a1; lra). assert (0 <= row4 A 3 p - row4 A 0 p) by (apply b1; lra).
    assert (0 <= row4 A 3 p + row4 A 1 p) by (apply c1; lra). assert (0 <= row4 A 3 p - row4 A 1 p) by (apply d1; lra).
    assert (0 <= row4 A 3 p + row4 A 2 p) by (apply P2; lra). assert (0 <= row4 A 3 p - row4 A 2 p) by (apply P2'; lra).
    intros [|[|[|i]]] Hi; try lia; lra.
  - intros H. pose proof (H 0%nat ltac:(lia)) as C0. pose proof (H 1%nat ltac:(lia)) as C1. pose proof (H 2%nat ltac:(lia)) as C2.
    assert (0 < - z - n) by (apply Q2; lra). assert (0 < f - - z) by (apply Q2'; lra).
    split; [lra|]. assert (Hz : 0 < - z) by lra. exists (n / - z). assert (Ek : n / - z * z = - n) by (field; lra).
    split; [apply Rdiv_lt_0_compat; lra|]. split; [exact Ek|]. destruct (S _ Hz Ek) as ([_ a1] & [_ b1] & [_ c1] & [_ d1]).
    assert (0 < n / - z * x - l) by (apply a1; lra). assert (0 < r - n / - z * x) by (apply b1; lra).
    assert (0 < n / - z * y - b) by (apply c1; lra). assert (0 < t - n / - z * y) by (apply d1; lra). repeat split; lra.
  - intros [[Z1 Z2] (k & Hk & Ek & [X1 X2] & Y1 & Y2)]. assert (Hz : 0 < - z) by lra. destruct (S _ Hz Ek) as ([_ a1] & [_ b1] & [_ c1] & [_ d1]).
    assert (0 < row4 A 3 p + row4 A 0 p) by (apply a1; lra). assert (0 < row4 A 3 p - row4 A 0 p) by (apply b1; lra).
    assert (0 < row4 A 3 p + row4 A 1 p) by (apply c1; lra). assert (0 < row4 A 3 p - row4 A 1 p) by (apply d1; lra).
    assert (0 < row4 A 3 p + row4 A 2 p) by (apply Q2; lra). assert (0 < row4 A 3 p - row4 A 2 p) by (apply Q2'; lra).
    intros [|[|[|i]]] Hi; try lia; lra.
Qed.
Lemma persp_proper l r b t n f : l < r -> b < t -> 0 < n -> n < f -> proper_faces (perspA l r b t n f).
Proof.
  intros H1 H2 H3 H4.
  assert (Nx : 2 * n / (r - l) <> 0) by (apply Rgt_not_eq, Rdiv_lt_0_compat; lra).
  assert (Ny : 2 * n / (t - b) <> 0) by (apply Rgt_not_eq, Rdiv_lt_0_compat; lra).
  assert (Nz : (f + n) / (f - n) > 1).
  { replace ((f + n) / (f - n)) with (1 + 2 * n / (f - n)) by (field; lra). assert (0 < 2 * n / (f - n)) by (apply Rdiv_lt_0_compat; lra). lra. }
  assert (Nz' : - (f + n) / (f - n) = - ((f + n) / (f - n))) by (field; lra).
  unfold proper_faces, faces. repeat constructor; cbn [fst face]; unfold perspA, cells, zero3; cbn [nth Nat.mul Nat.add]; intros E; injection E; intros; lra.
Qed.
(** C72, C73 for a perspective view: what is culled is outside the frustum,
    and FULL means inside it. *)
Theorem C72_perspective_culling l r b t n f : l < r -> b < t -> 0 < n -> n < f ->
  exists m cl, fr_compute_matrix [l; r; b; t; n; f] = Ok m /\ fc_setup m = Ok cl /\
  (forall c rad, exists v, fc_test_sphere cl (v3 c ++ [rad]) = Ok v /\
    (v = V_NONE -> forall p, in_ball c rad p -> ~ in_frustum_open l r b t n f p) /\
    (v = V_FULL -> forall p, in_ball c rad p -> in_frustum l r b t n f p)).
Proof.
  intros H1 H2 H3 H4. destruct (persp_rep l r b t n f) as (m & Em & Hm); try lra.
  destruct (C72_sphere_culling_sound m _ Hm (persp_proper l r b t n f H1 H2 H3 H4)) as (cl & Ec & S).
  exists m, cl. split; [exact Em|]. split; [exact Ec|]. intros c rd. destruct (S c rd) as (v & Ev & SN & SF & _). exists v; split; [exact Ev|].
  split; intros F p Hp.
  - intros O. apply (SN F p Hp). apply (persp_clip l r b t n f p H1 H2 H3 H4), O.
  - apply (persp_clip l r b t n f p H1 H2 H3 H4). exact (SF F p Hp).
Qed.
Theorem C73_perspective_culling l r b t n f : l < r -> b < t -> 0 < n -> n < f ->
  exists m cl, fr_compute_matrix [l; r; b; t; n; f] = Ok m /\ fc_setup m = Ok cl /\
  (forall x0 x1 y0 y1 z0 z1, exists v, fc_test_aabb cl [x0; x1] [y0; y1] [z0; z1] = Ok v /\
    (v = V_NONE -> forall p, in_span x0 x1 y0 y1 z0 z1 p -> ~ in_frustum_open l r b t n f p) /\
    (v = V_FULL <-> forall p, in_span x0 x1 y0 y1 z0 z1 p -> in_frustum l r b t n f p)).
Proof.
  intros H1 H2 H3 H4. destruct (persp_rep l r b t n f) as (m & Em & Hm); try lra.
  destruct (C73_box_culling_sound m _ Hm (persp_proper l r b t n f H1 H2 H3 H4)) as (cl & Ec & S).
  exists m, cl. split; [exact Em|]. split; [exact Ec|]. intros. destruct (S x0 x1 y0 y1 z0 z1) as (v & Ev & SN & SF & _). exists v; split; [exact Ev|].
  split.
  - intros F p Hp O. apply (SN F p Hp). apply (persp_clip l r b t n f p H1 H2 H3 H4), O.
  - rewrite SF. split; intros H p Hp; apply (persp_clip l r b t n f p H1 H2 H3 H4), H, Hp.
Qed.
Example C72_hypotheses_met : exists m, repM 4 4 m (perspA (-1) 1 (-1) 1 1 10) /\ proper_faces (perspA (-1) 1 (-1) 1 1 10) /\ in_ball (0, 0, -2) 1 (0, 0, -1).
Proof.
  destruct (persp_rep (-1) 1 (-1) 1 1 10) as (m & _ & Hm); try lra. exists m. split; [exact Hm|]. split; [apply persp_proper; lra|].
  unfold in_ball, dist3, len3R. cbn. replace ((0 - 0) * (0 - 0) + (0 - 0) * (0 - 0) + (-1 - -2) * (-1 - -2)) with 1 by ring. rewrite sqrt_1. lra.
Qed.
Example C73_hypotheses_met : proper_faces (perspA (-1) 1 (-1) 1 1 10) /\ in_span 1 0 0 1 (-2) (-3) (0, 0, -2) .
Proof.
  split; [apply persp_proper; lra|]. unfold in_span, between_R, Rmin, Rmax. repeat split; destruct (Rle_dec _ _); lra.
Qed.

(** C74: planes from the eight corners. *)
Lemma frame_det F p q x :
  let M := fun v : V3 => let '(a, b, c) := v in add3 (scale3 a (fu F)) (add3 (scale3 b (fv F)) (scale3 c (fw F))) in
  dot3 (cross3 (M p) (M q)) (M x) = dot3 (cross3 (fu F) (fv F)) (fw F) * dot3 (cross3 p q) x.
Proof.
  destruct F as [o [[u0 u1] u2] [[v0 v1] v2] [[w0 w1] w2]], p as [[p0 p1] p2], q as [[q0 q1] q2], x as [[x0 x1] x2]. cbn. ring.
Qed.
Lemma pt_sub F x y z x' y' z' : sub3 (pt F x y z) (pt F x' y' z') =
  add3 (scale3 (x - x') (fu F)) (add3 (scale3 (y - y') (fv F)) (scale3 (z - z') (fw F))).
Proof.
  destruct F as [[[o0 o1] o2] [[u0 u1] u2] [[v0 v1] v2] [[w0 w1] w2]]. unfold pt; cbn.
  apply f_equal2; [apply f_equal2|]; ring.
Qed.
(** The plane through three points of the frame, evaluated at a fourth. *)
Lemma corner_plane F xa ya za xb yb zb xc yc zc : right_handed F ->
  exists h k, vec_compute_plane (v3 (pt F xa ya za)) (v3 (pt F xb yb zb)) (v3 (pt F xc yc zc)) = Ok (pl h) /\
  0 < k /\ len3R (fst h) < 1 /\
  forall x y z, hval h (pt F x y z) = k * dot3 (cross3 (xb - xc, yb - yc, zb - zc) (xa - xb, ya - yb, za - zb)) (x - xa, y - ya, z - za).
Proof.
  intros HF. set (a := pt F xa ya za). set (b := pt F xb yb zb). set (c := pt F xc yc zc).
  destruct (compute_plane_eq cfg lim a b c) as (HL & HN & E).
  pose proof (compute_plane_value cfg lim a b c) as (x' & y' & z' & d' & E' & L1 & L2 & _).
  set (n := cross3 (sub3 b c) (sub3 a b)) in *. set (L := sqrt (dot3 n n + 1)) in *.
  exists (scale3 (/ L) n, - dot3 (scale3 (/ L) n) a), (/ L * dot3 (cross3 (fu F) (fv F)) (fw F)).
  split; [exact E|]. split; [apply Rmult_lt_0_compat; [apply Rinv_0_lt_compat, HL|exact HF]|]. split.
  - cbn [fst]. rewrite len3_scale, Rabs_pos_eq by (left; apply Rinv_0_lt_compat, HL). unfold Rdiv in L2. lra.
  - intros x y z. rewrite Rmult_assoc, <- frame_det. cbv beta zeta iota.
    rewrite <- !pt_sub. fold a b c. fold n. unfold hval. cbn [fst snd].
    generalize (pt F x y z) a n; intros [[q0 q1] q2] [[a0 a1] a2] [[n0 n1] n2]. cbn. ring.
Qed.
Theorem C74_corner_culling_sound F l r b t n f s : right_handed F -> l < r -> b < t -> n < f -> 0 < s ->
  let nlt := pt F l t (- n) in let nrt := pt F r t (- n) in let nlb := pt F l b (- n) in let nrb := pt F r b (- n) in
  let flt := pt F (s * l) (s * t) (- f) in let frt := pt F (s * r) (s * t) (- f) in
  let flb := pt F (s * l) (s * b) (- f) in let frb := pt F (s * r) (s * b) (- f) in
  exists left right bottom top near far,
  fc_setup_corners (v3 nlt) (v3 nrt) (v3 nlb) (v3 nrb) (v3 flt) (v3 frt) (v3 flb) (v3 frb) =
    Ok (pl left, pl right, pl bottom, pl top, pl near, pl far) /\
  (* every plane contains its four corners *)
  (forall q, In q [nlt; nlb; flt; flb] -> hval left q = 0) /\ (forall q, In q [nrt; nrb; frt; frb] -> hval right q = 0) /\
  (forall q, In q [nlb; nrb; flb; frb] -> hval bottom q = 0) /\ (forall q, In q [nlt; nrt; flt; frt] -> hval top q = 0) /\
  (forall q, In q [nlt; nrt; nlb; nrb] -> hval near q = 0) /\ (forall q, In q [flt; frt; flb; frb] -> hval far q = 0) /\
  (* the frustum is the intersection of the positive sides *)
  (forall x y z, in_trunc l r b t n f s x y z <-> forall h, In h [left; right; bottom; top; near; far] -> 0 <= hval h (pt F x y z)) /\
  (* culling is sound *)
  (forall c rd, exists v, fc_test_sphere (pl left, pl right, pl bottom, pl top, pl near, pl far) (v3 c ++ [rd]) = Ok v /\
    (v = V_NONE -> forall x y z, in_ball c rd (pt F x y z) -> ~ in_trunc_open l r b t n f s x y z) /\
    (v = V_FULL -> forall x y z, in_ball c rd (pt F x y z) -> in_trunc l r b t n f s x y z)) /\
  (forall x0 x1 y0 y1 z0 z1, exists v, fc_test_aabb (pl left, pl right, pl bottom, pl top, pl near, pl far) [x0; x1] [y0; y1] [z0; z1] = Ok v /\
    (v = V_NONE -> forall x y z, in_span x0 x1 y0 y1 z0 z1 (pt F x y z) -> ~ in_trunc_open l r b t n f s x y z) /\
    (v = V_FULL -> forall x y z, in_span x0 x1 y0 y1 z0 z1 (pt F x y z) -> in_trunc l r b t n f s x y z)) /\
  (* but the normals are never unit vectors *)
  (forall h, In h [left; right; bottom; top; near; far] -> len3R (fst h) < 1).
Proof.
  intros HF H1 H2 H3 Hs. cbv zeta. unfold fc_setup_corners.
  destruct (corner_plane F l b (- n) l t (- n) (s * l) (s * t) (- f) HF) as (hl & kl & -> & Kl & Nl & Vl).
  destruct (corner_plane F (s * r) (s * t) (- f) r t (- n) r b (- n) HF) as (hr & kr & -> & Kr & Nr & Vr).
  destruct (corner_plane F (s * r) (s * b) (- f) r b (- n) l b (- n) HF) as (hb & kb & -> & Kb & Nb & Vb).
  destruct (corner_plane F l t (- n) r t (- n) (s * r) (s * t) (- f) HF) as (ht & kt & -> & Kt & Nt & Vt).
  destruct (corner_plane F r t (- n) l t (- n) l b (- n) HF) as (hn & kn & -> & Kn & Nn & Vn).
  destruct (corner_plane F (s * l) (s * b) (- f) (s * l) (s * t) (- f) (s * r) (s * t) (- f) HF) as (hf & kf & -> & Kf & Nf & Vf).
  cbn [bind]. exists hl, hr, hb, ht, hn, hf. split; [reflexivity|].
  assert (Wl : forall x y z, hval hl (pt F x y z) = kl * ((t - b) * (f - n)) * (x - l * scale_at n f s (- z))).
  { intros. rewrite Vl. unfold scale_at. cbn. field. lra. }
  assert (Wr : forall x y z, hval hr (pt F x y z) = kr * ((t - b) * (f - n)) * (r * scale_at n f s (- z) - x)).
  { intros. rewrite Vr. unfold scale_at. cbn. field. lra. }
  assert (Wb : forall x y z, hval hb (pt F x y z) = kb * ((r - l) * (f - n)) * (y - b * scale_at n f s (- z))).
  { intros. rewrite Vb. unfold scale_at. cbn. field. lra. }
  assert (Wt : forall x y z, hval ht (pt F x y z) = kt * ((r - l) * (f - n)) * (t * scale_at n f s (- z) - y)).
  { intros. rewrite Vt. unfold scale_at. cbn. field. lra. }
  assert (Wn : forall x y z, hval hn (pt F x y z) = kn * ((r - l) * (t - b)) * (- z - n)).
  { intros. rewrite Vn. cbn. ring. }
  assert (Wf : forall x y z, hval hf (pt F x y z) = kf * (s * s * ((r - l) * (t - b))) * (f - - z)).
  { intros. rewrite Vf. cbn. ring. }
  clear Vl Vr Vb Vt Vn Vf.
  assert (Pl : 0 < kl * ((t - b) * (f - n))) by (repeat apply Rmult_lt_0_compat; lra).
  assert (Pr : 0 < kr * ((t - b) * (f - n))) by (repeat apply Rmult_lt_0_compat; lra).
  assert (Pb : 0 < kb * ((r - l) * (f - n))) by (repeat apply Rmult_lt_0_compat; lra).
  assert (Pt : 0 < kt * ((r - l) * (f - n))) by (repeat apply Rmult_lt_0_compat; lra).
  assert (Pn : 0 < kn * ((r - l) * (t - b))) by (repeat apply Rmult_lt_0_compat; lra).
  assert (Pf : 0 < kf * (s * s * ((r - l) * (t - b)))) by (repeat apply Rmult_lt_0_compat; lra).
  assert (Sn : scale_at n f s (- - n) = 1) by (unfold scale_at; field; lra).
  assert (Sf : scale_at n f s (- - f) = s) by (unfold scale_at; field; lra).
  assert (C : forall (Q : V3 -> Prop) (h : hs) (a1 a2 a3 a4 : V3), (forall q, In q [a1; a2; a3; a4] -> Q q) <-> Q a1 /\ Q a2 /\ Q a3 /\ Q a4).
  { intros Q _ a1 a2 a3 a4. split; [intros H; repeat split; apply H; cbn; auto|]. intros (A & B & C & D) q [<-|[<-|[<-|[<-|[]]]]]; assumption. }
  split; [apply (C (fun q => hval hl q = 0) hl); rewrite !Wl, Sn, Sf; repeat split; ring|].
  split; [apply (C (fun q => hval hr q = 0) hl); rewrite !Wr, Sn, Sf; repeat split; ring|].
  split; [apply (C (fun q => hval hb q = 0) hl); rewrite !Wb, Sn, Sf; repeat split; ring|].
  split; [apply (C (fun q => hval ht q = 0) hl); rewrite !Wt, Sn, Sf; repeat split; ring|].
  split; [apply (C (fun q => hval hn q = 0) hl); rewrite !Wn; repeat split; ring|].
  split; [apply (C (fun q => hval hf q = 0) hl); rewrite !Wf; repeat split; ring|].
  assert (T : forall x y z, in_trunc l r b t n f s x y z <-> forall h, In h [hl; hr; hb; ht; hn; hf] -> 0 <= hval h (pt F x y z)).
  { intros x y z. unfold in_trunc. split.
    - intros ([A1 A2] & [B1 B2] & C1 & C2) h [<-|[<-|[<-|[<-|[<-|[<-|[]]]]]]];
        rewrite ?Wl, ?Wr, ?Wb, ?Wt, ?Wn, ?Wf; apply Rmult_le_pos; lra.
    - intros H. pose proof (H hl) as Al. pose proof (H hr) as Ar. pose proof (H hb) as Ab. pose proof (H ht) as At. pose proof (H hn) as An. pose proof (H hf) as Af.
      rewrite Wl in Al; rewrite Wr in Ar; rewrite Wb in Ab; rewrite Wt in At; rewrite Wn in An; rewrite Wf in Af.
      cbn [In] in *. clear - Al Ar Ab At An Af Pl Pr Pb Pt Pn Pf.
      assert (Z : forall k u : R, 0 < k -> 0 <= k * u -> 0 <= u) by (intros; apply Rnot_lt_le; intro; nra).
      apply Z in Al; auto 10. apply Z in Ar; auto 10. apply Z in Ab; auto 10. apply Z in At; auto 10. apply Z in An; auto 10. apply Z in Af; auto 10.
      repeat split; lra. }
  assert (TO : forall x y z, in_trunc_open l r b t n f s x y z -> forall h, In h [hl; hr; hb; ht; hn; hf] -> 0 < hval h (pt F x y z)).
  { intros x y z. unfold in_trunc_open.
    intros ([A1 A2] & [B1 B2] & C1 & C2) h [<-|[<-|[<-|[<-|[<-|[<-|[]]]]]]];
        rewrite ?Wl, ?Wr, ?Wb, ?Wt, ?Wn, ?Wf; apply Rmult_lt_0_compat; lra. }
  split; [exact T|].
  assert (N1 : forall h, In h [hl; hr; hb; ht; hn; hf] -> len3R (fst h) < 1) by (intros h [<-|[<-|[<-|[<-|[<-|[<-|[]]]]]]]; assumption).
  split; [|split; [|exact N1]].
  - intros c rd. destruct (sphere_sound (pl hl, pl hr, pl hb, pl ht, pl hn, pl hf) [hl; hr; hb; ht; hn; hf] eq_refl) with (c := c) (r := rd) as (v & Ev & SN & SF).
    { intros h Hh. left. exact (N1 h Hh). }
    exists v; split; [exact Ev|]. split.
    + intros E x y z Hb O. destruct (SN E) as (h & Hh & L). specialize (L _ Hb). pose proof (TO x y z O h Hh). lra.
    + intros E x y z Hb. apply T. exact (SF E _ Hb).
  - intros. destruct (aabb_exact (pl hl, pl hr, pl hb, pl ht, pl hn, pl hf) [hl; hr; hb; ht; hn; hf] eq_refl x0 x1 y0 y1 z0 z1) as (v & Ev & SN & SF).
    exists v; split; [exact Ev|]. split.
    + intros E x y z Hb O. apply SN in E as (h & Hh & _ & L). specialize (L _ Hb). pose proof (TO x y z O h Hh). lra.
    + intros E x y z Hb. apply T. exact (proj1 SF E _ Hb).
Qed.
(** C107, refuted: the stored distance is not the Euclidean one: a ball of
    radius 0.99 in the middle of the box [-1,1]^3 (depths 1 to 3) is not found to be
    inside. *)
Theorem C107_corner_distance_refuted :
  exists F l r b t n f s c rd, right_handed F /\ l < r /\ b < t /\ n < f /\ 0 < s /\
  (forall x y z, in_ball c rd (pt F x y z) -> in_trunc_open l r b t n f s x y z) /\
  exists cl v,
  fc_setup_corners (v3 (pt F l t (- n))) (v3 (pt F r t (- n))) (v3 (pt F l b (- n))) (v3 (pt F r b (- n)))
    (v3 (pt F (s * l) (s * t) (- f))) (v3 (pt F (s * r) (s * t) (- f))) (v3 (pt F (s * l) (s * b) (- f))) (v3 (pt F (s * r) (s * b) (- f))) = Ok cl /\
  fc_test_sphere cl (v3 c ++ [rd]) = Ok v /\ v <> V_FULL.
Proof.
  set (F := {| fo := (0, 0, 0); fu := (1, 0, 0); fv := (0, 1, 0); fw := (0, 0, 1) |}).
  assert (HF : right_handed F) by (unfold right_handed; cbn; lra).
  exists F, (-1), 1, (-1), 1, 1, 3, 1, (0, 0, -2), (99 / 100).
  split; [exact HF|]. repeat (split; [lra|]). split.
  - intros x y z Hb. unfold in_ball, dist3, len3R in Hb.
    assert (Q : dot3 (sub3 (pt F x y z) (0, 0, -2)) (sub3 (pt F x y z) (0, 0, -2)) <= 99 / 100 * (99 / 100)).
    { pose proof (dot3_nonneg (sub3 (pt F x y z) (0, 0, -2))) as P. rewrite <- (sqrt_sqrt _ P).
      pose proof (sqrt_pos (dot3 (sub3 (pt F x y z) (0, 0, -2)) (sub3 (pt F x y z) (0, 0, -2)))). nra. }
    assert (Q' : x * x + y * y + (z + 2) * (z + 2) <= 99 / 100 * (99 / 100)) by (cbn in Q; lra).
    assert (SQ : scale_at 1 3 1 (- z) = 1) by (unfold scale_at; field).
    assert (B : forall u : R, u * u <= 99 / 100 * (99 / 100) -> -1 < u < 1) by (intros; split; nra).
    pose proof (Rle_0_sqr x) as Sx. pose proof (Rle_0_sqr y) as Sy. pose proof (Rle_0_sqr (z + 2)) as Sz. unfold Rsqr in Sx, Sy, Sz.
    assert (Bx : -1 < x < 1) by (apply B; lra). assert (By : -1 < y < 1) by (apply B; lra). assert (Bz : -1 < z + 2 < 1) by (apply B; lra).
    unfold in_trunc_open. rewrite SQ. lra.
  - destruct (C74_corner_culling_sound F (-1) 1 (-1) 1 1 3 1 HF) as (hl & hr & hb & ht & hn & hf & E & Kl & _ & _ & _ & _ & _ & _ & _ & _ & N1); try lra.
    eexists; eexists. split; [exact E|].
    rewrite (test_sphere_eq _ [hl; hr; hb; ht; hn; hf]) by reflexivity. split; [reflexivity|].
    assert (D : hval hl (0, 0, -2) < 99 / 100).
    { cbv zeta in E. unfold fc_setup_corners in E.
      destruct (compute_plane_eq cfg lim (pt F (-1) (-1) (-1)) (pt F (-1) 1 (-1)) (pt F (1 * -1) (1 * 1) (-3))) as (HL & _ & E1).
      revert E. change (- (1)) with (-1). change (- (3)) with (-3). rewrite E1. cbn [bind].
      set (n0 := cross3 (sub3 (pt F (-1) 1 (-1)) (pt F (1 * -1) (1 * 1) (-3))) (sub3 (pt F (-1) (-1) (-1)) (pt F (-1) 1 (-1)))) in *.
      assert (En : n0 = (4, 0, 0)) by (unfold n0, F, pt; cbn; apply f_equal2; [apply f_equal2|]; ring).
      assert (EL : dot3 n0 n0 + 1 = 17) by (rewrite En; cbn; ring). rewrite EL in *.
      repeat match goal with |- context [vec_compute_plane ?a ?b ?c] => destruct (vec_compute_plane a b c); [|discriminate..]; cbn [bind] end.
      rewrite En. intros E. assert (E' : forall (p q p0 q0 p1 q1 p2 q2 p3 q3 p4 q4 : list R), Ok (p, p0, p1, p2, p3, p4) = Ok (q, q0, q1, q2, q3, q4) -> p = q) by (intros; congruence).
      apply E' in E. clear E'.
      assert (I : / sqrt 17 < 2475 / 10000).
      { assert (S4 : 41 / 10 < sqrt 17) by (rewrite <- (sqrt_Rsqr (41 / 10)) by lra; apply sqrt_lt_1; unfold Rsqr; lra).
        apply (Rmult_lt_reg_r (sqrt 17)); [lra|]. rewrite Rinv_l by lra. lra. }
      destruct hl as [[[g0 g1] g2] gd]. unfold F, pt, pl in E. cbn in E. injection E; intros; unfold hval; cbn; nra. }
    match goal with |- (if ?x then _ else _) <> _ => destruct x; [discriminate|] end.
    cbn [existsb]. rewrite (Rltb_true _ _ D). cbn [orb]. discriminate.
Qed.
Example C74_hypotheses_met : right_handed {| fo := (1, 2, 3); fu := (0, 1, 0); fv := (0, 0, 1); fw := (1, 0, 0) |}.
Proof. unfold right_handed; cbn; lra. Qed.
End Cull.
Print Assumptions C72_sphere_culling_sound.
Print Assumptions C72_sphere_culling_exact.
Print Assumptions C73_box_culling_sound.
Print Assumptions C73_perspective_culling.
Print Assumptions C74_corner_culling_sound.
Print Assumptions C107_corner_distance_refuted.
