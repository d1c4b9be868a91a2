(** Properties C17-C20: rotations, scalings, translations. *)
From Coq Require Import Nsatz.
From Verif Require Export PMatrix2 MMatrix2 LVecProps.
Local Open Scope R_scope.

(** The rotation matrix spelled out. *)
Definition rotF (k : V3) (t : R) (i j : nat) : R :=
  let '(x, y, z) := k in let c := cos t in let s := sin t in let d := 1 - c in
  nth j (nth i
    [[c + d * (x * x); d * x * y - s * z; d * x * z + s * y; 0];
     [d * x * y + s * z; c + d * (y * y); d * y * z - s * x; 0];
     [d * x * z - s * y; d * y * z + s * x; c + d * (z * z); 0];
     [0; 0; 0; 1]] []) 0.

Section R4.
Context {cfg : Cfg} {lim : RLim}.
Lemma mat_rotate_R m t k : length m = 16%nat -> returns (mat_rotate m t (v3 k)) (fun r => repM 4 4 r (rotF k t)).
Proof.
  intros Hm. destruct (mat_rep 4 4 m Hm) as (f & Hf). destruct k as [[x y] z]. lit Hf.
  unfold mat_rotate. cbn -[IZR Rplus Rminus Rmult Ropp sin cos]. apply returns_ok.
  exact (repM_44 (rotF (x, y, z) t)).
Qed.

Lemma sc1 t : sin t * sin t + cos t * cos t = 1.
Proof. pose proof (sin2_cos2 t) as H. unfold Rsqr in H. exact H. Qed.
End R4.

(** C17. *)
Lemma C41_rotate_unit {cfg : Cfg} {lim : RLim} p t k : dot3 k k = 1 ->
  vec_rotate (v3 p) t (v3 k) = Ok (v3 (rodrigues k t p)).
Proof.
  intros Hk. assert (L : len3R k = 1) by (apply len3_one_iff; exact Hk).
  rewrite rotate_is_rodrigues.
  - rewrite L, Rinv_1. destruct k as [[x y] z]. cbn [scale3]. rewrite !Rmult_1_l. reflexivity.
  - intros ->. unfold zero3, dot3 in Hk. lra.
Qed.

Theorem C17_rotate :
  forall (cfg : Cfg) (lim : RLim) (m : list R) (t : R) (k : V3),
  length m = 16%nat -> dot3 k k = 1 ->
  exists r F, mat_rotate m t (v3 k) = Ok r /\ repM 4 4 r F /\
  (* the upper left block maps p to the vector of Rodrigues' formula *)
  (forall p, (mvecR 3 F (fn3 p) 0, mvecR 3 F (fn3 p) 1, mvecR 3 F (fn3 p) 2) = rodrigues k t p) /\
  (* last row and column are those of the identity *)
  (forall i, (i < 4)%nat -> F i 3%nat = idR i 3 /\ F 3%nat i = idR 3 i) /\
  (* orthogonal, determinant 1, the axis is fixed *)
  (forall i j, (i < 3)%nat -> (j < 3)%nat ->
     mmulR 3 F (fun a b => F b a) i j = idR i j /\ mmulR 3 (fun a b => F b a) F i j = idR i j) /\
  detR 3 F = 1 /\
  (forall i, (i < 3)%nat -> mvecR 3 F (fn3 k) i = fn3 k i) /\
  (* agrees with Vector::rotate *)
  (forall p, exists q, vec_rotate (v3 p) t (v3 k) = Ok q /\ mat_mul_hom 4 4 3 r (v3 p) = Ok q).
Proof.
  intros cfg lim m t k Hm Hk. destruct (mat_rotate_R m t k Hm) as (r & E & Hr).
  exists r, (rotF k t). split; [exact E|]. split; [exact Hr|].
  assert (ROD : forall p, (mvecR 3 (rotF k t) (fn3 p) 0, mvecR 3 (rotF k t) (fn3 p) 1, mvecR 3 (rotF k t) (fn3 p) 2) = rodrigues k t p).
  { intros [[a b] c]. destruct k as [[x y] z]. unfold mvecR, rodrigues, cross3, scale3, add3, dot3.
    cbn -[IZR Rplus Rminus Rmult Ropp sin cos]. f_equal; [f_equal|]; ring. }
  split; [exact ROD|]. destruct k as [[x y] z]. unfold dot3 in Hk. pose proof (sc1 t) as SC.   assert (XX : x * x = 1 - y * y - z * z) by lra.
  split; [|split; [|split; [|split]]].
  - intros i Hi. cell4 i Hi; unfold idR; cbn; split; reflexivity.
  - intros i j Hi Hj. clear ROD E Hr Hm XX. cell4 i Hi; cell4 j Hj; clear Hi Hj; unfold mmulR, idR; cbn -[IZR Rplus Rminus Rmult Ropp sin cos];
    generalize dependent (sin t); generalize dependent (cos t); intros c s SC; split; nsatz.
  - clear ROD E Hr Hm XX. dexp. cbn -[IZR Rplus Rminus Rmult Ropp sin cos].
    generalize dependent (sin t); generalize dependent (cos t); intros c s SC; nsatz.
  - intros i Hi. clear ROD E Hr Hm XX. cell4 i Hi; clear Hi; unfold mvecR; cbn -[IZR Rplus Rminus Rmult Ropp sin cos];
    generalize dependent (sin t); generalize dependent (cos t); intros c s SC; nsatz.
  - intros p. exists (v3 (rodrigues (x, y, z) t p)). split.
    + rewrite C41_rotate_unit by exact Hk. reflexivity.
    + rewrite <- ROD. destruct p as [[a b] e].
      pose proof (mat_mul_hom_R 3 r (v3 (a, b, e)) _ _ Hr (v3_rep (a, b, e))) as H. cbv zeta in H.
      change (3 + 1)%nat with 4%nat in H. rewrite H.
      assert (W : mvecR 3 (rotF (x, y, z) t) (fn3 (a, b, e)) 3 + rotF (x, y, z) t 3 3 = 1)
        by (unfold mvecR; cbn -[IZR Rplus Rminus Rmult Ropp sin cos]; ring).
      cbv beta. rewrite W. rewrite Reqb_false by lra. cbn [andb]. f_equal.
      cbn [map seq v3]. repeat (apply (f_equal2 (@cons R)); [|]); try reflexivity;
        match goal with |- (_ + ?z) / 1 = _ => replace z with 0 by reflexivity end; field.
Qed.
Print Assumptions C17_rotate.

Example C17_hypotheses_met : dot3 (0, 3 / 5, 4 / 5) (0, 3 / 5, 4 / 5) = 1 /\ length (repeat 7 16) = 16%nat.
Proof. split; [unfold dot3; lra|reflexivity]. Qed.

(** C18.  rotate_x/y/z multiply from the right with the matrix that
    rotate( angle, axis ) builds for the coordinate axis. *)
Lemma eq_of_rep {M N} {a b : list R} {f} : repM M N a f -> repM M N b f -> Ok a = Ok b.
Proof. intros Ha Hb. f_equal. exact (repM_inj _ _ _ _ _ Ha Hb). Qed.


Lemma repM_44' {A} (l : list A) g :
  l = [g 0 0; g 1 0; g 2 0; g 3 0; g 0 1; g 1 1; g 2 1; g 3 1;
       g 0 2; g 1 2; g 2 2; g 3 2; g 0 3; g 1 3; g 2 3; g 3 3]%nat -> repM 4 4 l g.
Proof. intros ->. apply repM_44. Qed.

(** Two 4 x 4 arrays are equal if their 16 cells are (after computation). *)
Ltac cells16 := repeat (apply (f_equal2 (@cons R)); [try ring|]); try reflexivity.
Ltac calc4 Hm := lit Hm; cbn -[IZR Rplus Rminus Rmult Ropp sin cos]; apply returns_ok; apply repM_44';
  unfold mmulR, rotF; cbn -[IZR Rplus Rminus Rmult Ropp sin cos]; cells16.

Section R4b.
Context {cfg : Cfg} {lim : RLim}.
Lemma mat_rotate_x_R m f t : repM 4 4 m f -> returns (mat_rotate_x m t) (fun r => repM 4 4 r (mmulR 4 f (rotF (1, 0, 0) t))).
Proof. intros Hm. calc4 Hm. Qed.
Lemma mat_rotate_y_R m f t : repM 4 4 m f -> returns (mat_rotate_y m t) (fun r => repM 4 4 r (mmulR 4 f (rotF (0, 1, 0) t))).
Proof. intros Hm. calc4 Hm. Qed.
Lemma mat_rotate_z_R m f t : repM 4 4 m f -> returns (mat_rotate_z m t) (fun r => repM 4 4 r (mmulR 4 f (rotF (0, 0, 1) t))).
Proof. intros Hm. calc4 Hm. Qed.
Lemma mat_pre_rotate_x_R m f t : repM 4 4 m f -> returns (mat_pre_rotate_x m t) (fun r => repM 4 4 r (mmulR 4 (rotF (1, 0, 0) (- t)) f)).
Proof. intros Hm. unfold rotF. rewrite sin_neg, cos_neg. calc4 Hm. Qed.
Lemma mat_pre_rotate_y_R m f t : repM 4 4 m f -> returns (mat_pre_rotate_y m t) (fun r => repM 4 4 r (mmulR 4 (rotF (0, 1, 0) (- t)) f)).
Proof. intros Hm. unfold rotF. rewrite sin_neg, cos_neg. calc4 Hm. Qed.
Lemma mat_pre_rotate_z_R m f t : repM 4 4 m f -> returns (mat_pre_rotate_z m t) (fun r => repM 4 4 r (mmulR 4 (rotF (0, 0, 1) (- t)) f)).
Proof. intros Hm. unfold rotF. rewrite sin_neg, cos_neg. calc4 Hm. Qed.

Lemma rotF_add k t s i j : k = (1, 0, 0) \/ k = (0, 1, 0) \/ k = (0, 0, 1) -> (i < 4)%nat -> (j < 4)%nat ->
  mmulR 4 (rotF k t) (rotF k s) i j = rotF k (t + s) i j.
Proof.
  intros Hk Hi Hj. unfold rotF, mmulR.
  destruct Hk as [->|[->| ->]]; rewrite sin_plus, cos_plus; cell4 i Hi; cell4 j Hj;
    cbn -[IZR Rplus Rminus Rmult Ropp sin cos]; ring.
Qed.
Lemma rotF_0 k i j : (i < 4)%nat -> (j < 4)%nat -> rotF k 0 i j = idR i j.
Proof.
  intros Hi Hj. destruct k as [[x y] z]. unfold rotF. rewrite sin_0, cos_0.
  cell4 i Hi; cell4 j Hj; unfold idR; cbn -[IZR Rplus Rminus Rmult Ropp]; ring.
Qed.
End R4b.

Theorem C18_rotate_axis :
  forall (cfg : Cfg) (lim : RLim) (m g : list R) (t : R),
  length m = 16%nat -> length g = 16%nat ->
  (exists r p, mat_rotate g t (v3 (1, 0, 0)) = Ok r /\ mat_mul 4 4 4 m r = Ok p /\ mat_rotate_x m t = Ok p) /\
  (exists r p, mat_rotate g t (v3 (0, 1, 0)) = Ok r /\ mat_mul 4 4 4 m r = Ok p /\ mat_rotate_y m t = Ok p) /\
  (exists r p, mat_rotate g t (v3 (0, 0, 1)) = Ok r /\ mat_mul 4 4 4 m r = Ok p /\ mat_rotate_z m t = Ok p).
Proof.
  intros cfg lim m g t Hm Hg. destruct (mat_rep 4 4 m Hm) as (f & Hf).
  assert (K : forall k q, returns q (fun r => repM 4 4 r (mmulR 4 f (rotF k t))) ->
     exists r p, mat_rotate g t (v3 k) = Ok r /\ mat_mul 4 4 4 m r = Ok p /\ q = Ok p).
  { intros k q (x & -> & Hx). destruct (mat_rotate_R g t k Hg) as (r & Er & Hr).
    destruct (mat_mul_R 4 4 4 m r f _ Hf Hr) as (p & Ep & Hp). exists r, p. split; [exact Er|]. split; [exact Ep|].
    exact (eq_of_rep Hx Hp). }
  split; [|split]; apply K; [apply mat_rotate_x_R|apply mat_rotate_y_R|apply mat_rotate_z_R]; exact Hf.
Qed.
Print Assumptions C18_rotate_axis.

Theorem C18_rotate_axis_laws :
  forall (cfg : Cfg) (lim : RLim) (m : list R) (t s : R) (rot : list R -> R -> res (list R)),
  length m = 16%nat -> rot = mat_rotate_x \/ rot = mat_rotate_y \/ rot = mat_rotate_z ->
  exists a b, rot m t = Ok a /\ rot a s = Ok b /\ rot m (t + s) = Ok b /\ rot a (- t) = Ok m.
Proof.
  intros cfg lim m t s rot Hm Hrot. destruct (mat_rep 4 4 m Hm) as (f & Hf).
  assert (K : exists k, (k = (1, 0, 0) \/ k = (0, 1, 0) \/ k = (0, 0, 1)) /\
     forall x h u, repM 4 4 x h -> returns (rot x u) (fun r => repM 4 4 r (mmulR 4 h (rotF k u)))).
  { destruct Hrot as [->|[->| ->]].
    - exists (1, 0, 0). split; [tauto|]. intros; apply mat_rotate_x_R; assumption.
    - exists (0, 1, 0). split; [tauto|]. intros; apply mat_rotate_y_R; assumption.
    - exists (0, 0, 1). split; [tauto|]. intros; apply mat_rotate_z_R; assumption. }
  destruct K as (k & Hk & K). destruct (K m f t Hf) as (a & Ea & Ha). destruct (K a _ s Ha) as (b & Eb & Hb).
  destruct (K m f (t + s) Hf) as (c & Ec & Hc). destruct (K a _ (- t) Ha) as (d & Ed & Hd).
  exists a, b. split; [exact Ea|]. split; [exact Eb|]. split.
  - rewrite Ec. apply (eq_of_rep Hc). eapply repM_ext; [exact Hb|]. intros i j Hi Hj. rewrite mmulR_assoc.
    apply mmulR_ext; [reflexivity|]. intros p Hp. apply rotF_add; auto.
  - rewrite Ed. apply (eq_of_rep Hd). eapply repM_ext; [exact Hf|]. intros i j Hi Hj. rewrite mmulR_assoc.
    rewrite <- (mmulR_id_r 4 f i j Hj). apply mmulR_ext; [reflexivity|]. intros p Hp. rewrite rotF_add by auto.
    replace (t + - t) with 0 by ring. symmetry. apply rotF_0; auto.
Qed.
Print Assumptions C18_rotate_axis_laws.

Example C18_hypotheses_met : length (repeat 3 16) = 16%nat.
Proof. reflexivity. Qed.

(** C19.  What pre_rotate_x/y/z really do: multiply from the left with the
    rotation by MINUS the angle. *)
Theorem C19_pre_rotate_partial :
  forall (cfg : Cfg) (lim : RLim) (m g : list R) (t : R),
  length m = 16%nat -> length g = 16%nat ->
  (exists r p, mat_rotate g (- t) (v3 (1, 0, 0)) = Ok r /\ mat_mul 4 4 4 r m = Ok p /\ mat_pre_rotate_x m t = Ok p) /\
  (exists r p, mat_rotate g (- t) (v3 (0, 1, 0)) = Ok r /\ mat_mul 4 4 4 r m = Ok p /\ mat_pre_rotate_y m t = Ok p) /\
  (exists r p, mat_rotate g (- t) (v3 (0, 0, 1)) = Ok r /\ mat_mul 4 4 4 r m = Ok p /\ mat_pre_rotate_z m t = Ok p).
Proof.
  intros cfg lim m g t Hm Hg. destruct (mat_rep 4 4 m Hm) as (f & Hf).
  assert (K : forall k q, returns q (fun r => repM 4 4 r (mmulR 4 (rotF k (- t)) f)) ->
     exists r p, mat_rotate g (- t) (v3 k) = Ok r /\ mat_mul 4 4 4 r m = Ok p /\ q = Ok p).
  { intros k q (x & -> & Hx). destruct (mat_rotate_R g (- t) k Hg) as (r & Er & Hr).
    destruct (mat_mul_R 4 4 4 r m _ f Hr Hf) as (p & Ep & Hp). exists r, p. split; [exact Er|]. split; [exact Ep|].
    exact (eq_of_rep Hx Hp). }
  split; [|split]; apply K; [apply mat_pre_rotate_x_R|apply mat_pre_rotate_y_R|apply mat_pre_rotate_z_R]; exact Hf.
Qed.
Print Assumptions C19_pre_rotate_partial.

(** C19 as stated is false: for the identity matrix (any invertible one would
    do) and any angle with non-zero sine the result is not R(angle) * m. *)
Theorem C19_pre_rotate_refuted :
  forall (cfg : Cfg) (lim : RLim) (g : list R) (t : R),
  length g = 16%nat -> sin t <> 0 ->
  exists i, mat_IDENTITY 4 = Ok i /\
  forall k pre, (k = (1, 0, 0) /\ pre = mat_pre_rotate_x) \/ (k = (0, 1, 0) /\ pre = mat_pre_rotate_y) \/
                (k = (0, 0, 1) /\ pre = mat_pre_rotate_z) ->
  exists r p q, mat_rotate g t (v3 k) = Ok r /\ mat_mul 4 4 4 r i = Ok p /\ pre i t = Ok q /\ p <> q.
Proof.
  intros cfg lim g t Hg Ht. destruct (mat_default_spec 4 4) as (d0 & E0 & H0).
  destruct (mat_identity_spec 4 d0 _ H0) as (i & Ei & Hi). change (repM 4 4 i idR) in Hi.
  exists i. unfold mat_IDENTITY. rewrite E0. split; [exact Ei|]. intros k pre Hk.
  destruct (mat_rotate_R g t k Hg) as (r & Er & Hr). destruct (mat_mul_R 4 4 4 r i _ _ Hr Hi) as (p & Ep & Hp).
  assert (P : returns (pre i t) (fun x => repM 4 4 x (mmulR 4 (rotF k (- t)) idR))).
  { destruct Hk as [[-> ->]|[[-> ->]|[-> ->]]]; [apply mat_pre_rotate_x_R|apply mat_pre_rotate_y_R|apply mat_pre_rotate_z_R]; exact Hi. }
  destruct P as (q & Eq & Hq). exists r, p, q. repeat (split; [assumption|]). intros <-.
  pose proof (repM_fun _ _ _ _ _ Hp Hq) as K.
  destruct Hk as [[-> ->]|[[-> ->]|[-> ->]]].
  - specialize (K 2%nat 1%nat ltac:(lia) ltac:(lia)). rewrite !mmulR_id_r in K by lia. unfold rotF in K. rewrite sin_neg, cos_neg in K.
    cbn -[IZR Rplus Rminus Rmult Ropp sin cos] in K. lra.
  - specialize (K 0%nat 2%nat ltac:(lia) ltac:(lia)). rewrite !mmulR_id_r in K by lia. unfold rotF in K. rewrite sin_neg, cos_neg in K.
    cbn -[IZR Rplus Rminus Rmult Ropp sin cos] in K. lra.
  - specialize (K 1%nat 0%nat ltac:(lia) ltac:(lia)). rewrite !mmulR_id_r in K by lia. unfold rotF in K. rewrite sin_neg, cos_neg in K.
    cbn -[IZR Rplus Rminus Rmult Ropp sin cos] in K. lra.
Qed.
Print Assumptions C19_pre_rotate_refuted.

Example C19_hypotheses_met : sin (PI / 2) <> 0 /\ length (repeat 3 16) = 16%nat.
Proof. split; [rewrite sin_PI2; lra|reflexivity]. Qed.

(** C20.  Scalings and translations. *)
Theorem C20_scale_translation_members :
  forall (cfg : Cfg) (lim : RLim) (m g : list R) (f : nat -> nat -> R) (s t : V3),
  repM 4 4 m f -> length g = 16%nat ->
  let '(sx, sy, sz) := s in
  (* scale( s ) = m * diag( s, 1 ) *)
  (exists d p, mat_diag 4 g [sx; sy; sz; 1] = Ok d /\ mat_mul 4 4 4 m d = Ok p /\ mat_scale m (v3 s) = Ok p) /\
  (* scale_translation multiplies the translation cells only *)
  returns (mat_scale_translation m (v3 s))
    (fun r => repM 4 4 r (fun i j => if (j =? 3)%nat && (i <? 3)%nat then f i j * fn3 s i else f i j)) /\
  (* set_translation changes the translation cells only; get_translation reads it back *)
  (exists r, mat_set_translation m (v3 t) = Ok r /\
     repM 4 4 r (fun i j => if (j =? 3)%nat && (i <? 3)%nat then fn3 t i else f i j) /\
     mat_get_translation 4 4 r = Ok (v3 t) /\
     mat_x r = Ok (fn3 t 0) /\ mat_y r = Ok (fn3 t 1) /\ mat_z r = Ok (fn3 t 2)) /\
  mat_get_translation 4 4 m = Ok [f 0 3; f 1 3; f 2 3]%nat /\
  mat_x m = Ok (f 0 3)%nat /\ mat_y m = Ok (f 1 3)%nat /\ mat_z m = Ok (f 2 3)%nat.
Proof.
  intros cfg lim m g f [[sx sy] sz] [[tx ty] tz] Hm Hg. split; [|split; [|split]].
  - destruct (mat_rep 4 4 g Hg) as (h & Hh).
    destruct (mat_diag_spec 4 g h [sx; sy; sz; 1] (fun i => nth i [sx; sy; sz; 1] 0) Hh) as (d & Ed & Hd);
      [split; [reflexivity|intros [|[|[|[|i]]]] Hi; try lia; reflexivity]|].
    destruct (mat_mul_R 4 4 4 m d f _ Hm Hd) as (p & Ep & Hp). exists d, p. split; [exact Ed|]. split; [exact Ep|].
    assert (X : returns (mat_scale m (v3 (sx, sy, sz)))
       (fun r => repM 4 4 r (mmulR 4 f (fun i j => if (i =? j)%nat then nth i [sx; sy; sz; 1] 0 else szero)))).
    { calc4 Hm. }
    destruct X as (q & Eq & Hq). rewrite Eq. exact (eq_of_rep Hq Hp).
  - calc4 Hm.
  - lit Hm. eexists. split; [cbn; reflexivity|]. split; [apply repM_44'; reflexivity|]. repeat split; reflexivity.
  - lit Hm. repeat split; reflexivity.
Qed.
Print Assumptions C20_scale_translation_members.

Theorem C20_create_apply :
  forall (cfg : Cfg) (lim : RLim) (m : list R) (p t s k : V3) (a c : R),
  length m = 16%nat ->
  let '(tx, ty, tz) := t in let '(kx, ky, kz) := k in let '(sx, sy, sz) := s in let '(px, py, pz) := p in
  (* create_translation( t ) * p = p + t; create_scaling( s ) * p = s . p *)
  (exists tr, util_create_translation (v3 t) = Ok tr /\ mat_mul_hom 4 4 3 tr (v3 p) = Ok (v3 (add3 p t))) /\
  (exists sc, util_create_scaling (v3 s) = Ok sc /\ mat_mul_hom 4 4 3 sc (v3 p) = Ok [sx * px; sy * py; sz * pz]) /\
  (exists sc, util_create_scaling_s c = Ok sc /\ mat_mul_hom 4 4 3 sc (v3 p) = Ok (v3 (scale3 c p))) /\
  (* create_rotation is rotate(); about a unit axis it rotates points *)
  (forall g, length g = 16%nat -> util_create_rotation a (v3 k) = mat_rotate g a (v3 k)) /\
  (* the apply functions multiply from the right *)
  (exists tr r, util_create_translation (v3 t) = Ok tr /\ mat_mul 4 4 4 m tr = Ok r /\ util_apply_translation m tx ty tz = Ok r) /\
  (exists ro r, util_create_rotation a (v3 k) = Ok ro /\ mat_mul 4 4 4 m ro = Ok r /\ util_apply_rotation m a kx ky kz = Ok r).
Proof.
  intros cfg lim m [[px py] pz] [[tx ty] tz] [[sx sy] sz] [[kx ky] kz] a c Hm.
  destruct (mat_rep 4 4 m Hm) as (f & Hf).
  destruct (mat_default_spec 4 4) as (d0 & E0 & H0). destruct (mat_identity_spec 4 d0 _ H0) as (i & Ei & Hi).
  change (repM 4 4 i idR) in Hi.
  assert (HOM : forall r F x y z, repM 4 4 r F ->
     mvecR 3 F (fn3 (px, py, pz)) 3 + F 3%nat 3%nat = 1 ->
     mvecR 3 F (fn3 (px, py, pz)) 0 + F 0%nat 3%nat = x -> mvecR 3 F (fn3 (px, py, pz)) 1 + F 1%nat 3%nat = y ->
     mvecR 3 F (fn3 (px, py, pz)) 2 + F 2%nat 3%nat = z ->
     mat_mul_hom 4 4 3 r (v3 (px, py, pz)) = Ok [x; y; z]).
  { intros r F x y z Hr W X Y Z. pose proof (mat_mul_hom_R 3 r _ F _ Hr (v3_rep (px, py, pz))) as H. cbv zeta in H.
    change (3 + 1)%nat with 4%nat in H. rewrite H. rewrite W, Reqb_false by lra. cbn [andb map seq]. rewrite X, Y, Z.
    unfold Rdiv. rewrite !Rinv_1, !Rmult_1_r. reflexivity. }
  assert (TR : returns (util_create_translation [tx; ty; tz])
     (fun r => repM 4 4 r (fun u v => if (v =? 3)%nat && (u <? 3)%nat then fn3 (tx, ty, tz) u else idR u v))).
  { unfold util_create_translation. rewrite E0. cbn [bind]. rewrite Ei. cbn [bind].
    destruct (C20_scale_translation_members cfg lim i m idR (tx, ty, tz) (tx, ty, tz) Hi Hm) as (_ & _ & (r & Er & Hr & _) & _).
    exists r. split; [exact Er|exact Hr]. }
  assert (SCALE : forall x y z, returns (util_create_scaling [x; y; z])
     (fun r => repM 4 4 r (fun u v => idR u v * nth v [x; y; z; 1] 0))).
  { intros x y z. unfold util_create_scaling. rewrite E0. cbn [bind]. rewrite Ei. cbn [bind]. calc4 Hi. }
  assert (ROT : forall g, length g = 16%nat -> util_create_rotation a [kx; ky; kz] = mat_rotate g a [kx; ky; kz]).
  { intros g Hg. unfold util_create_rotation. rewrite E0. cbn [bind]. rewrite Ei. cbn [bind].
    destruct (mat_rotate_R i a (kx, ky, kz) (repM_len _ _ _ _ Hi)) as (r1 & E1 & H1).
    destruct (mat_rotate_R g a (kx, ky, kz) Hg) as (r2 & E2 & H2). cbn [v3] in E1, E2. rewrite E1, E2. exact (eq_of_rep H1 H2). }
  split; [|split; [|split; [|split; [|split]]]].
  - destruct TR as (r & Er & Hr). exists r. split; [exact Er|]. cbn [add3 v3].
    eapply HOM; [exact Hr| | | |]; unfold mvecR, idR; cbn -[IZR Rplus Rminus Rmult Ropp]; ring.
  - destruct (SCALE sx sy sz) as (r & Er & Hr). exists r. split; [exact Er|].
    eapply HOM; [exact Hr| | | |]; unfold mvecR, idR; cbn -[IZR Rplus Rminus Rmult Ropp]; ring.
  - destruct (SCALE c c c) as (r & Er & Hr). exists r. split; [exact Er|]. cbn [scale3 v3].
    eapply HOM; [exact Hr| | | |]; unfold mvecR, idR; cbn -[IZR Rplus Rminus Rmult Ropp]; ring.
  - exact ROT.
  - destruct TR as (r & Er & Hr). destruct (mat_mul_R 4 4 4 m r f _ Hf Hr) as (q & Eq & Hq).
    destruct (mat_mul_assign_spec 4 m r f _ Hf Hr) as (q2 & Eq2 & Hq2).
    exists r, q. split; [exact Er|]. split; [exact Eq|]. unfold util_apply_translation. rewrite Er. cbn [bind]. rewrite Eq2.
    apply (eq_of_rep Hq2). eapply repM_ext; [exact Hq|]. intros u v _ _; cbv beta. rewrite ssum_R. reflexivity.
  - destruct (mat_rotate_R m a (kx, ky, kz) Hm) as (r & Er & Hr). cbn [v3] in *. rewrite (ROT m Hm).
    destruct (mat_mul_R 4 4 4 m r f _ Hf Hr) as (q & Eq & Hq).
    destruct (mat_mul_assign_spec 4 m r f _ Hf Hr) as (q2 & Eq2 & Hq2).
    exists r, q. split; [exact Er|]. split; [exact Eq|]. unfold util_apply_rotation. rewrite (ROT m Hm), Er. cbn [bind]. rewrite Eq2.
    apply (eq_of_rep Hq2). eapply repM_ext; [exact Hq|]. intros u v _ _; cbv beta. rewrite ssum_R. reflexivity.
Qed.
Print Assumptions C20_create_apply.

Example C20_hypotheses_met : repM 4 4 [1; 0; 0; 0; 0; 1; 0; 0; 0; 0; 1; 0; 0; 0; 0; 1] idR.
Proof. exact (repM_44 idR). Qed.
