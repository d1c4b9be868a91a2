(** Property C111: culling in world coordinates. *)
From Verif Require Import PCuller PMatrix2 PMatrix6 PAlias.
Local Open Scope R_scope.

(** The image of a point under an affine 4 x 4 matrix. *)
Definition img (A : nat -> nat -> R) (p : V3) : V3 := (row4 A 0 p, row4 A 1 p, row4 A 2 p).
Definition affine (A : nat -> nat -> R) : Prop :=
  A 3%nat 0%nat = 0 /\ A 3%nat 1%nat = 0 /\ A 3%nat 2%nat = 0 /\ A 3%nat 3%nat = 1.

Section C2.
Context {cfg : Cfg} {lim : RLim}.

Lemma row4_mul P V p k : affine V -> row4 (mmulR 4 P V) k p = row4 P k (img V p).
Proof.
  intros (E0 & E1 & E2 & E3). destruct p as [[x y] z]. unfold img, row4, mmulR, rsum. rewrite E0, E1, E2, E3. ring.
Qed.
Lemma clip_mul P V p : affine V ->
  (in_clip (mmulR 4 P V) p <-> in_clip P (img V p)) /\ (in_clip_open (mmulR 4 P V) p <-> in_clip_open P (img V p)).
Proof.
  intros HV. unfold in_clip, in_clip_open. split; split; intros H k Hk; specialize (H k Hk); rewrite !row4_mul in * by exact HV; exact H.
Qed.
Lemma det_inverse f m : repM 4 4 m f -> detR 4 f <> 0 ->
  exists g, forall i j, (i < 4)%nat -> (j < 4)%nat -> mmulR 4 f g i j = idR i j.
Proof.
  intros Hm HD.
  destruct (C13_inverse cfg lim 4 m m f 0 ltac:(lia) Hm (proj1 Hm)) as (Acc & _).
  destruct Acc as (x & i & E1 & Ei & E2 & _); [cbn; apply Rabs_pos_lt; exact HD|exact HD|].
  destruct (inverse_inv 4 m m x 0 ltac:(lia) (proj1 Hm) (proj1 Hm) E1) as (d & i' & _ & _ & _ & Ei' & Lx & _ & Emx & _).
  destruct (mat_rep 4 4 x Lx) as (g & Hg). exists g.
  destruct (mat_mul_R 4 4 4 m x f g Hm Hg) as (y & Ey & Hy). rewrite E2 in Ey. injection Ey as <-.
  pose proof (IDENTITY_rep cfg lim 4 i Ei) as Hi2.
  intros a b Ha Hb. exact (repM_fun _ _ _ _ _ Hy Hi2 a b Ha Hb).
Qed.
Lemma linear_part f m : repM 4 4 m f -> affine f -> detR 4 f <> 0 ->
  forall n0 n1 n2, (forall j, (j < 3)%nat -> n0 * f 0%nat j + n1 * f 1%nat j + n2 * f 2%nat j = 0) -> n0 = 0 /\ n1 = 0 /\ n2 = 0.
Proof.
  intros Hm (E0 & E1 & E2 & E3) HD n0 n1 n2 HN. destruct (det_inverse f m Hm HD) as (g & G).
  assert (L : forall j, (j < 3)%nat -> g 3%nat j = 0).
  { intros j Hj. pose proof (G 3%nat j ltac:(lia) ltac:(lia)) as X. unfold mmulR, rsum in X. rewrite E0, E1, E2, E3 in X.
    unfold idR in X. destruct (Nat.eqb_spec 3 j); [lia|]. lra. }
  assert (X : forall i j, (i < 3)%nat -> (j < 3)%nat -> f i 0%nat * g 0%nat j + f i 1%nat * g 1%nat j + f i 2%nat * g 2%nat j = idR i j).
  { intros i j Hi Hj. rewrite <- (G i j) by lia. unfold mmulR, rsum. rewrite (L j Hj). ring. }
  assert (K : forall j, (j < 3)%nat -> n0 * idR 0 j + n1 * idR 1 j + n2 * idR 2 j = 0).
  { intros j Hj. rewrite <- !X by lia.
    pose proof (HN 0%nat ltac:(lia)) as A0. pose proof (HN 1%nat ltac:(lia)) as A1. pose proof (HN 2%nat ltac:(lia)) as A2.
    replace (n0 * (f 0%nat 0%nat * g 0%nat j + f 0%nat 1%nat * g 1%nat j + f 0%nat 2%nat * g 2%nat j) +
             n1 * (f 1%nat 0%nat * g 0%nat j + f 1%nat 1%nat * g 1%nat j + f 1%nat 2%nat * g 2%nat j) +
             n2 * (f 2%nat 0%nat * g 0%nat j + f 2%nat 1%nat * g 1%nat j + f 2%nat 2%nat * g 2%nat j))
      with ((n0 * f 0%nat 0%nat + n1 * f 1%nat 0%nat + n2 * f 2%nat 0%nat) * g 0%nat j +
            (n0 * f 0%nat 1%nat + n1 * f 1%nat 1%nat + n2 * f 2%nat 1%nat) * g 1%nat j +
            (n0 * f 0%nat 2%nat + n1 * f 1%nat 2%nat + n2 * f 2%nat 2%nat) * g 2%nat j) by ring.
    rewrite A0, A1, A2. ring. }
  pose proof (K 0%nat ltac:(lia)) as K0. pose proof (K 1%nat ltac:(lia)) as K1. pose proof (K 2%nat ltac:(lia)) as K2.
  unfold idR in K0, K1, K2. cbn in K0, K1, K2. repeat split; lra.
Qed.
Lemma proper_mul P f m : proper_faces P -> repM 4 4 m f -> affine f -> detR 4 f <> 0 -> proper_faces (mmulR 4 P f).
Proof.
  intros HP Hm HA HD. pose proof (linear_part f m Hm HA HD) as L.
  destruct HA as (E0 & E1 & E2 & E3).
  assert (F : forall s k, fst (face P s k) <> zero3 -> fst (face (mmulR 4 P f) s k) <> zero3).
  { intros s k HN HZ. apply HN. unfold face, fst in *. unfold zero3 in HZ. injection HZ as Z0 Z1 Z2.
    unfold mmulR, rsum in Z0, Z1, Z2. rewrite E0 in Z0. rewrite E1 in Z1. rewrite E2 in Z2.
    destruct (L (P 3%nat 0%nat + s * P k 0%nat) (P 3%nat 1%nat + s * P k 1%nat) (P 3%nat 2%nat + s * P k 2%nat)) as (-> & -> & ->); [|reflexivity].
    intros [|[|[|j]]] Hj; try lia;
      first [solve [eapply eq_trans; [|exact Z0]; ring]|solve [eapply eq_trans; [|exact Z1]; ring]|eapply eq_trans; [|exact Z2]; ring]. }
  unfold proper_faces, faces in *.
  repeat match goal with H : List.Forall _ (_ :: _) |- _ => apply Forall_cons_iff in H; destruct H end.
  repeat (constructor; [apply F; assumption|]). constructor.
Qed.
Lemma affine_hom V f p : repM 4 4 V f -> affine f -> mat_mul_hom 4 4 3 V (v3 p) = Ok (v3 (img f p)).
Proof.
  intros HV (E0 & E1 & E2 & E3). destruct p as [[x y] z].
  pose proof (C16_homogeneous_transform cfg lim 3 V (v3 (x, y, z)) f (fn3 (x, y, z)) HV (v3_rep _)) as (H & _). cbv zeta in H.
  assert (W : mvecR (3 + 1) f (fun j => if (j <? 3)%nat then fn3 (x, y, z) j else 1) 3 = 1).
  { unfold mvecR, rsum. cbn [Nat.add Nat.ltb Nat.leb]. rewrite E0, E1, E2, E3. ring. }
  rewrite W in H. destruct (H ltac:(lra)) as (r & E & Hr). change (3 + 1)%nat with 4%nat in E. rewrite E. f_equal.
  apply (repV_inj 3 r (v3 (img f (x, y, z))) (fn3 (img f (x, y, z)))); [|apply v3_rep].
  eapply repV_ext; [exact Hr|]. intros i Hi. cbv beta. unfold img, row4, mvecR, rsum. destruct i as [|[|[|]]]; try lia; cbn; field.
Qed.

Definition ball_test (cl : list R * list R * list R * list R * list R * list R) (inside inside_open : V3 -> Prop) (V : list R) : Prop :=
  forall c rad, exists v, fc_test_sphere cl (v3 c ++ [rad]) = Ok v /\
    (v = V_NONE -> forall p q, in_ball c rad p -> mat_mul_hom 4 4 3 V (v3 p) = Ok (v3 q) -> ~ inside_open q) /\
    (v = V_FULL -> forall p q, in_ball c rad p -> mat_mul_hom 4 4 3 V (v3 p) = Ok (v3 q) -> inside q).
Definition box_test (cl : list R * list R * list R * list R * list R * list R) (inside inside_open : V3 -> Prop) (V : list R) : Prop :=
  forall x0 x1 y0 y1 z0 z1, exists v, fc_test_aabb cl [x0; x1] [y0; y1] [z0; z1] = Ok v /\
    (v = V_NONE -> forall p q, in_span x0 x1 y0 y1 z0 z1 p -> mat_mul_hom 4 4 3 V (v3 p) = Ok (v3 q) -> ~ inside_open q) /\
    (v = V_FULL <-> forall p q, in_span x0 x1 y0 y1 z0 z1 p -> mat_mul_hom 4 4 3 V (v3 p) = Ok (v3 q) -> inside q).

Lemma v3_inj p q : v3 p = v3 q -> p = q.
Proof. destruct p as [[a b] c], q as [[a' b'] c']. cbn. intros H. injection H as -> -> ->. reflexivity. Qed.
Lemma world_culling (inside inside_open : V3 -> Prop) P A V f :
  repM 4 4 P A -> proper_faces A -> (forall p, in_clip A p <-> inside p) -> (forall p, in_clip_open A p <-> inside_open p) ->
  repM 4 4 V f -> affine f -> detR 4 f <> 0 ->
  exists PV cl, mat_mul 4 4 4 P V = Ok PV /\ fc_setup PV = Ok cl /\
    (forall p, exists q, mat_mul_hom 4 4 3 V (v3 p) = Ok (v3 q)) /\
    ball_test cl inside inside_open V /\ box_test cl inside inside_open V.
Proof.
  intros HP HA HI HO HV HF HD. destruct (mat_mul_R 4 4 4 P V A f HP HV) as (PV & E & HPV).
  pose proof (proper_mul A f V HA HV HF HD) as HB.
  destruct (C72_sphere_culling_sound PV _ HPV HB) as (cl & Ec & S).
  destruct (C73_box_culling_sound PV _ HPV HB) as (cl' & Ec' & B). rewrite Ec in Ec'. injection Ec' as <-.
  assert (H0 : forall p q, mat_mul_hom 4 4 3 V (v3 p) = Ok (v3 q) <-> q = img f p).
  { intros p q. rewrite (affine_hom V f p HV HF). split; [intros X; injection X; intros; symmetry; apply v3_inj; congruence|intros ->; reflexivity]. }
  pose proof (fun p => clip_mul A f p HF) as CM.
  exists PV, cl. split; [exact E|]. split; [exact Ec|]. split; [intros p; exists (img f p); apply H0; reflexivity|]. split.
  - intros c rad. destruct (S c rad) as (v & Ev & SN & SF & _). exists v. split; [exact Ev|]. split.
    + intros F p q Hp Hq O. apply H0 in Hq as ->. apply (SN F p Hp). apply CM, HO, O.
    + intros F p q Hp Hq. apply H0 in Hq as ->. apply HI, CM, (SF F p Hp).
  - intros x0 x1 y0 y1 z0 z1. destruct (B x0 x1 y0 y1 z0 z1) as (v & Ev & SN & SF & _). exists v. split; [exact Ev|]. split.
    + intros F p q Hp Hq O. apply H0 in Hq as ->. apply (SN F p Hp). apply CM, HO, O.
    + rewrite SF. split.
      * intros H p q Hp Hq. apply H0 in Hq as ->. apply HI, CM, H, Hp.
      * intros H p Hp. apply CM, HI. apply (H p); [exact Hp|]. apply H0. reflexivity.
Qed.

(** The interior of the orthographic box. *)
Definition in_ortho_open (l r b t n f : R) (p : V3) : Prop :=
  let '(x, y, z) := p in l < x < r /\ b < y < t /\ - f < z < - n.
Definition orthoA (l r b t n f : R) : nat -> nat -> R := cells 4
  [2 / (r - l); 0; 0; 0; 0; 2 / (t - b); 0; 0; 0; 0; - (2) / (f - n); 0;
      - (r + l) / (r - l); - (t + b) / (t - b); - (f + n) / (f - n); 1].
Lemma ortho_rep l r b t n f : l <> r -> b <> t -> n <> f ->
  exists m, fr_compute_ortho_matrix [l; r; b; t; n; f] = Ok m /\ repM 4 4 m (orthoA l r b t n f).
Proof. intros. eexists. split; [apply compute_ortho_eq; assumption|]. apply repM_cells. reflexivity. Qed.
Lemma ortho_clip l r b t n f p : l < r -> b < t -> n < f ->
  (in_clip (orthoA l r b t n f) p <-> in_ortho l r b t n f p) /\
  (in_clip_open (orthoA l r b t n f) p <-> in_ortho_open l r b t n f p).
Proof.
  intros H1 H2 H3. destruct p as [[x y] z]. set (p := (x, y, z)). set (A := orthoA l r b t n f).
  assert (E : row4 A 3 p = 1 /\ (row4 A 3 p + row4 A 0 p) * (r - l) = 2 * (x - l) /\ (row4 A 3 p - row4 A 0 p) * (r - l) = 2 * (r - x) /\
     (row4 A 3 p + row4 A 1 p) * (t - b) = 2 * (y - b) /\ (row4 A 3 p - row4 A 1 p) * (t - b) = 2 * (t - y) /\
     (row4 A 3 p + row4 A 2 p) * (f - n) = 2 * (- z - n) /\ (row4 A 3 p - row4 A 2 p) * (f - n) = 2 * (f - - z)).
  { unfold A, p, row4, orthoA, cells. cbn [nth Nat.mul Nat.add]. repeat split; field; lra. }
  destruct E as (_ & E0 & E0' & E1 & E1' & E2 & E2').
  apply pos_cancel in E0 as [P0 Q0], E0' as [P0' Q0'], E1 as [P1 Q1], E1' as [P1' Q1'], E2 as [P2 Q2], E2' as [P2' Q2']; try lra.
  clearbody A. split; split.
  - intros H. pose proof (H 0%nat ltac:(lia)). pose proof (H 1%nat ltac:(lia)). pose proof (H 2%nat ltac:(lia)).
    unfold in_ortho, p. assert (0 <= 2 * (x - l)) by (apply P0; lra). assert (0 <= 2 * (r - x)) by (apply P0'; lra).
    assert (0 <= 2 * (y - b)) by (apply P1; lra). assert (0 <= 2 * (t - y)) by (apply P1'; lra).
    assert (0 <= 2 * (- z - n)) by (apply P2; lra). assert (0 <= 2 * (f - - z)) by (apply P2'; lra). lra.
  - unfold in_ortho, p. fold p. intros (X & Y & Z).
    assert (0 <= row4 A 3 p + row4 A 0 p) by (apply P0; lra). assert (0 <= row4 A 3 p - row4 A 0 p) by (apply P0'; lra).
    assert (0 <= row4 A 3 p + row4 A 1 p) by (apply P1; lra). assert (0 <= row4 A 3 p - row4 A 1 p) by (apply P1'; lra).
    assert (0 <= row4 A 3 p + row4 A 2 p) by (apply P2; lra). assert (0 <= row4 A 3 p - row4 A 2 p) by (apply P2'; lra).
    intros [|[|[|i]]] Hi; try lia; lra.
  - intros H. pose proof (H 0%nat ltac:(lia)). pose proof (H 1%nat ltac:(lia)). pose proof (H 2%nat ltac:(lia)).
    unfold in_ortho_open, p. assert (0 < 2 * (x - l)) by (apply Q0; lra). assert (0 < 2 * (r - x)) by (apply Q0'; lra).
    assert (0 < 2 * (y - b)) by (apply Q1; lra). assert (0 < 2 * (t - y)) by (apply Q1'; lra).
    assert (0 < 2 * (- z - n)) by (apply Q2; lra). assert (0 < 2 * (f - - z)) by (apply Q2'; lra). lra.
  - unfold in_ortho_open, p. fold p. intros (X & Y & Z).
    assert (0 < row4 A 3 p + row4 A 0 p) by (apply Q0; lra). assert (0 < row4 A 3 p - row4 A 0 p) by (apply Q0'; lra).
    assert (0 < row4 A 3 p + row4 A 1 p) by (apply Q1; lra). assert (0 < row4 A 3 p - row4 A 1 p) by (apply Q1'; lra).
    assert (0 < row4 A 3 p + row4 A 2 p) by (apply Q2; lra). assert (0 < row4 A 3 p - row4 A 2 p) by (apply Q2'; lra).
    intros [|[|[|i]]] Hi; try lia; lra.
Qed.
Lemma ortho_proper l r b t n f : l < r -> b < t -> n < f -> proper_faces (orthoA l r b t n f).
Proof.
  intros H1 H2 H3.
  assert (Nx : 2 / (r - l) <> 0) by (apply Rgt_not_eq, Rdiv_lt_0_compat; lra).
  assert (Ny : 2 / (t - b) <> 0) by (apply Rgt_not_eq, Rdiv_lt_0_compat; lra).
  assert (Nz : 2 / (f - n) <> 0) by (apply Rgt_not_eq, Rdiv_lt_0_compat; lra).
  assert (Nz' : - (2) / (f - n) = - (2 / (f - n))) by (field; lra).
  unfold proper_faces, faces. repeat constructor; cbn [fst face]; unfold orthoA, cells, zero3; cbn [nth Nat.mul Nat.add]; intros E; injection E; intros; lra.
Qed.

(** C111.  With the product of a projection matrix and an invertible affine
    modelview matrix V, culling answers for world coordinates: NONE only if no
    point of the object is moved by V into the (interior of the) view volume, FULL
    only -- for boxes exactly -- if every point is moved into it. *)
Theorem C111_perspective_world_culling l r b t n f V fV :
  l < r -> b < t -> 0 < n -> n < f ->
  repM 4 4 V fV -> affine fV -> detR 4 fV <> 0 ->
  exists P PV cl, fr_compute_matrix [l; r; b; t; n; f] = Ok P /\ mat_mul 4 4 4 P V = Ok PV /\ fc_setup PV = Ok cl /\
    (forall p, exists q, mat_mul_hom 4 4 3 V (v3 p) = Ok (v3 q)) /\
    ball_test cl (in_frustum l r b t n f) (in_frustum_open l r b t n f) V /\
    box_test cl (in_frustum l r b t n f) (in_frustum_open l r b t n f) V.
Proof.
  intros H1 H2 H3 H4 HV HF HD. destruct (persp_rep l r b t n f) as (P & EP & HP); try lra.
  destruct (world_culling (in_frustum l r b t n f) (in_frustum_open l r b t n f) P _ V fV HP (persp_proper l r b t n f H1 H2 H3 H4)) as (PV & cl & X);
    [intros p; apply (persp_clip l r b t n f p H1 H2 H3 H4)|intros p; apply (persp_clip l r b t n f p H1 H2 H3 H4)|exact HV|exact HF|exact HD|].
  exists P, PV, cl. split; [exact EP|exact X].
Qed.
Theorem C111_ortho_world_culling l r b t n f V fV :
  l < r -> b < t -> n < f ->
  repM 4 4 V fV -> affine fV -> detR 4 fV <> 0 ->
  exists P PV cl, fr_compute_ortho_matrix [l; r; b; t; n; f] = Ok P /\ mat_mul 4 4 4 P V = Ok PV /\ fc_setup PV = Ok cl /\
    (forall p, exists q, mat_mul_hom 4 4 3 V (v3 p) = Ok (v3 q)) /\
    ball_test cl (in_ortho l r b t n f) (in_ortho_open l r b t n f) V /\
    box_test cl (in_ortho l r b t n f) (in_ortho_open l r b t n f) V.
Proof.
  intros H1 H2 H3 HV HF HD. destruct (ortho_rep l r b t n f) as (P & EP & HP); try lra.
  destruct (world_culling (in_ortho l r b t n f) (in_ortho_open l r b t n f) P _ V fV HP (ortho_proper l r b t n f H1 H2 H3)) as (PV & cl & X);
    [intros p; apply (ortho_clip l r b t n f p H1 H2 H3)|intros p; apply (ortho_clip l r b t n f p H1 H2 H3)|exact HV|exact HF|exact HD|].
  exists P, PV, cl. split; [exact EP|exact X].
Qed.
End C2.
Print Assumptions C111_perspective_world_culling.
Print Assumptions C111_ortho_world_culling.
(** A translation by (1, 2, 3) is an invertible affine matrix. *)
Example C111_hypotheses_met :
  let f := cells 4 [1; 0; 0; 0; 0; 1; 0; 0; 0; 0; 1; 0; 1; 2; 3; 1] in
  repM 4 4 [1; 0; 0; 0; 0; 1; 0; 0; 0; 0; 1; 0; 1; 2; 3; 1] f /\ affine f /\ detR 4 f <> 0.
Proof.
  cbv zeta. split; [apply repM_cells; reflexivity|]. split; [repeat split; reflexivity|].
  cbn. unfold cells; cbn. lra.
Qed.
