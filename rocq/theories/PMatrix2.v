(** Properties C09, C11-C16: aliased products, unary minus, determinants,
    inverses, cofactors, matrix-vector products, homogeneous transforms. *)
From Verif Require Export LMat6 LVecProps2.
Local Open Scope R_scope.

(** C09, the true part: with two other objects as operands multiply() yields
    the product whatever m contained, in every element type and shape. *)
Theorem C09_multiply_unaliased_partial :
  forall (cfg : Cfg) (T : Type) (ST : Scalar T) (M P N : nat) (m l r : list T) (fl fr : nat -> nat -> T),
  length m = (M * N)%nat -> repM M P l fl -> repM P N r fr ->
  returns (mat_multiply M P N m (Val l) (Val r))
    (fun x => repM M N x (fun i j => ssum P (fun p => smul (fl i p) (fr p j)))).
Proof.
  intros cfg T ST M P N m l r fl fr Hm Hl Hr. destruct (mat_rep M N m Hm) as (f & Rm).
  exact (mat_multiply_spec M P N m l r f fl fr Rm Hl Hr).
Qed.
Print Assumptions C09_multiply_unaliased_partial.

(** C09, the false part: as soon as one operand is the destination itself, cell
    (0,0) of the result lacks the term left(0,0)*right(0,0), for every size and
    all contents; so the product is wrong whenever that term is non-zero.
    [m *= m] is the case (Val m, Self). *)
Theorem C09_multiply_aliased_refuted :
  forall (cfg : Cfg) (lim : RLim) (M : nat) (m : list R) (f : nat -> nat -> R) (left right : arg R) (fl fr : nat -> nat -> R),
  (0 < M)%nat -> repM M M m f -> arg_cells M M f left fl -> arg_cells M M f right fr ->
  left = Self \/ right = Self ->
  exists r x, mat_multiply M M M m left right = Ok r /\ mat_at M M r 0 0 = Ok x /\
    x = mmulR M fl fr 0 0 - fl 0%nat 0%nat * fr 0%nat 0%nat /\
    (fl 0%nat 0%nat * fr 0%nat 0%nat <> 0 -> ~ repM M M r (mmulR M fl fr)).
Proof.
  intros cfg lim M m f left right fl fr HM Hm Hl Hr HS.
  destruct (multiply_aliased M m f left right fl fr HM Hm Hl Hr HS) as (r & E & Hlen & Hat).
  assert (V : rsum M (fun p => if (p =? 0)%nat then 0 else fl 0%nat p * fr p 0%nat)
              = mmulR M fl fr 0 0 - fl 0%nat 0%nat * fr 0%nat 0%nat).
  { unfold mmulR. destruct M as [|M]; [lia|]. rewrite !rsum_shift. cbn [Nat.eqb]. ring. }
  rewrite V in Hat. exists r, (mmulR M fl fr 0 0 - fl 0%nat 0%nat * fr 0%nat 0%nat).
  split; [exact E|]. split; [exact Hat|]. split; [reflexivity|].
  intros Hne HR. rewrite (mat_at_ok M M r _ 0 0 HR HM HM) in Hat. injection Hat as Hat. lra.
Qed.
Print Assumptions C09_multiply_aliased_refuted.

Theorem C09_mul_assign_self_refuted :
  forall (cfg : Cfg) (lim : RLim) (M : nat) (m : list R) (f : nat -> nat -> R),
  (0 < M)%nat -> repM M M m f -> f 0%nat 0%nat <> 0 ->
  exists p q, mat_mul M M M m m = Ok p /\ mat_mul_assign M m Self = Ok q /\ p <> q.
Proof.
  intros cfg lim M m f HM Hm Hne.
  destruct (mat_mul_R M M M m m f f Hm Hm) as (p & Ep & Hp).
  destruct (C09_multiply_aliased_refuted cfg lim M m f (Val m) Self f f HM Hm Hm eq_refl (or_intror eq_refl))
    as (q & x & Eq & _ & _ & Hq).
  exists p, q. split; [exact Ep|]. split; [exact Eq|]. intros <-. apply Hq; [|exact Hp].
  intros Z. apply Rmult_integral in Z. tauto.
Qed.
Print Assumptions C09_mul_assign_self_refuted.

Example C09_hypotheses_met : arg_cells 2 2 idR (Val [1; 0; 0; 1]) idR /\ arg_cells 2 2 idR Self idR /\ idR 0 0 * idR 0 0 <> 0.
Proof. split; [|split; [reflexivity|unfold idR; cbn; lra]]. exact (repM_22 idR). Qed.

(** C11, false of the code: unary minus ignores the matrix; the result is minus
    the default matrix (identity if square, zero otherwise)... *)
Theorem C11_negate_refuted :
  forall (cfg : Cfg) (T : Type) (ST : Scalar T) (M N : nat) (m : list T),
  returns (mat_negate M N m)
    (fun r => repM M N r (fun i j => smul (if (M =? N)%nat && (i =? j)%nat then sone else szero) (sopp sone))).
Proof.
  intros cfg T ST M N m. unfold mat_negate. destruct (mat_default_spec M N) as (d & -> & Hd). cbn [bind].
  eapply returns_impl; [apply (mat_map_assign_s_spec M N (fun a => Ok (smul a (sopp sone))) d _
    (fun i j => smul (if (M =? N)%nat then idf i j else szero) (sopp sone)) Hd); intros; reflexivity|].
  intros r Hr. eapply repM_ext; [exact Hr|]. intros i j _ _; cbv beta. unfold idf.
  destruct (M =? N)%nat, (i =? j)%nat; reflexivity.
Qed.
Print Assumptions C11_negate_refuted.

(** ...so over the reals it is right exactly for that matrix. *)
Theorem C11_negate_partial :
  forall (cfg : Cfg) (lim : RLim) (M N : nat) (m : list R) (f : nat -> nat -> R),
  repM M N m f ->
  (returns (mat_negate M N m) (fun r => repM M N r (fun i j => - f i j)) <->
   forall i j, (i < M)%nat -> (j < N)%nat -> f i j = if (M =? N)%nat && (i =? j)%nat then 1 else 0).
Proof.
  intros cfg lim M N m f Hm. destruct (C11_negate_refuted cfg R RScalar M N m) as (r & E & Hr). rewrite E. split.
  - intros H i j Hi Hj. apply returns_ok_inv in H.
    pose proof (repM_fun _ _ _ _ _ Hr H i j Hi Hj) as K. cbv beta in K. cbn in K.
    destruct ((M =? N)%nat && (i =? j)%nat); lra.
  - intros H. apply returns_ok. eapply repM_ext; [exact Hr|]. intros i j Hi Hj; cbv beta. rewrite H by auto. cbn.
    destruct ((M =? N)%nat && (i =? j)%nat); lra.
Qed.
Print Assumptions C11_negate_partial.

Example C11_hypotheses_met : repM 2 2 [5; 0; 0; 5] (fun i j => 5 * idR i j) /\ 5 * idR 0 0 <> 1.
Proof.
  split; [|unfold idR; cbn; lra]. pose proof (repM_22 (fun i j => 5 * idR i j)) as H. unfold idR in *.
  cbn -[IZR Rmult] in H. replace (5 * 1) with 5 in H by lra. replace (5 * 0) with 0 in H by lra. exact H.
Qed.

(** C12.  det() is the Laplace determinant of Spec.v ... *)
Theorem C12_det :
  forall (cfg : Cfg) (lim : RLim) (n : nat) (m : list R) (f : nat -> nat -> R),
  (1 <= n <= 4)%nat -> repM n n m f -> mat_det n m = Ok (detR n f).
Proof. intros; apply mat_det_R; assumption. Qed.
Print Assumptions C12_det.

(** ... and obeys the laws of determinants, stated on det() itself. *)
Theorem C12_det_laws :
  forall (cfg : Cfg) (lim : RLim) (n : nat) (a b : list R),
  (1 <= n <= 4)%nat -> length a = (n * n)%nat -> length b = (n * n)%nat ->
  (exists t d, mat_transpose n n a = Ok t /\ mat_det n t = Ok d /\ mat_det n a = Ok d) /\
  (exists ab da db, mat_mul n n n a b = Ok ab /\ mat_det n a = Ok da /\ mat_det n b = Ok db /\
     mat_det n ab = Ok (da * db)) /\
  (exists i, mat_IDENTITY n = Ok i /\ mat_det n i = Ok 1) /\
  (forall r1 r2 row1 row2 x y, (r1 < n)%nat -> (r2 < n)%nat -> r1 <> r2 ->
     mat_get_row n n a r1 = Ok row1 -> mat_get_row n n a r2 = Ok row2 ->
     mat_set_row n n a r1 row2 = Ok x -> mat_set_row n n x r2 row1 = Ok y ->
     exists d, mat_det n a = Ok d /\ mat_det n y = Ok (- d)).
Proof.
  intros cfg lim n a b Hn La Lb.
  destruct (mat_rep n n a La) as (f & Ha). destruct (mat_rep n n b Lb) as (g & Hb).
  split; [|split; [|split]].
  - destruct (mat_transpose_spec n n a f Ha) as (t & Et & Ht). exists t, (detR n f).
    split; [exact Et|]. rewrite (mat_det_R n t _ Hn Ht), (mat_det_R n a f Hn Ha). split; [|reflexivity]. f_equal.
    destruct n as [|[|[|[|[|n]]]]]; try lia; dexp; ring.
  - destruct (mat_mul_R n n n a b f g Ha Hb) as (ab & Eab & Hab). exists ab, (detR n f), (detR n g).
    split; [exact Eab|]. rewrite (mat_det_R n ab _ Hn Hab), (mat_det_R n a f Hn Ha), (mat_det_R n b g Hn Hb).
    split; [reflexivity|]. split; [reflexivity|]. f_equal. destruct n as [|[|[|[|[|n]]]]]; try lia; dexp; ring.
  - destruct (mat_default_spec n n) as (d0 & E0 & H0). destruct (mat_identity_spec n d0 _ H0) as (i & Ei & Hi).
    exists i. unfold mat_IDENTITY. rewrite E0. split; [exact Ei|]. rewrite (mat_det_R n i idR Hn); [|exact Hi]. f_equal.
    destruct n as [|[|[|[|[|n]]]]]; try lia; dexp; ring.
  - intros r1 r2 row1 row2 x y H1 H2 Hne E1 E2 Ex Ey.
    destruct (mat_get_row_spec n n a f r1 Ha H1) as (p1 & P1 & R1). rewrite P1 in E1. injection E1 as <-.
    destruct (mat_get_row_spec n n a f r2 Ha H2) as (p2 & P2 & R2). rewrite P2 in E2. injection E2 as <-.
    destruct (mat_set_row_spec n n a f r1 p2 _ Ha R2 H1) as (x' & X & RX). rewrite X in Ex. injection Ex as <-.
    destruct (mat_set_row_spec n n x' _ r2 p1 _ RX R1 H2) as (y' & Y & RY). rewrite Y in Ey. injection Ey as <-.
    exists (detR n f). rewrite (mat_det_R n a f Hn Ha), (mat_det_R n y' _ Hn RY). split; [reflexivity|]. f_equal.
    clear - Hn H1 H2 Hne. destruct n as [|[|[|[|[|n]]]]]; try lia; cell4 r1 H1; cell4 r2 H2; try congruence; dexp; ring.
Qed.
Print Assumptions C12_det_laws.

Example C12_hypotheses_met : length [1; 2; 3; 4] = (2 * 2)%nat /\ (1 <= 2 <= 4)%nat.
Proof. split; [reflexivity|lia]. Qed.

(** C13.  inverse(): which outcome for which determinant, and the result really
    is the inverse.  [inv] is the previous content of the output. *)
Theorem C13_inverse :
  forall (cfg : Cfg) (lim : RLim) (n : nat) (m inv : list R) (f : nat -> nat -> R) (tol : R),
  (2 <= n <= 4)%nat -> repM n n m f -> length inv = (n * n)%nat ->
  let d := Rabs (detR n f) in
  let accepted := if (n =? 2)%nat then tol <= d else tol < d in
  (accepted -> detR n f <> 0 ->
     exists x i, mat_inverse n m inv tol = Ok (true, x) /\ mat_IDENTITY n = Ok i /\
       mat_mul n n n m x = Ok i /\ mat_mul n n n x m = Ok i) /\
  (~ accepted -> exists x, mat_inverse n m inv tol = Ok (false, x) /\ length x = (n * n)%nat) /\
  (accepted -> detR n f = 0 -> mat_inverse n m inv tol = NonFin) /\
  (0 < tol \/ (n <> 2%nat /\ 0 <= tol) -> accepted -> detR n f <> 0).
Proof.
  intros cfg lim n m inv f tol Hn Hm Hl d accepted.
  destruct (mat_inverse_R n m inv f tol Hn Hm Hl) as (H1 & H2 & H3). fold d in H1, H2, H3.
  assert (ACC : accepted <-> accepts n d tol = true).
  { unfold accepted, accepts. destruct (n =? 2)%nat.
    - destruct (Rltb_spec d tol); cbn; split; intros; try easy; lra.
    - destruct (Rleb_spec d tol); cbn; split; intros; try easy; lra. }
  split; [|split; [|split]].
  - intros A D. apply ACC in A. destruct (H2 A D) as (x & E & Hx).
    destruct (mat_mul_id n m x f _ Hm Hx) as (i & Ei & E1).
    { intros i j Hi Hj. apply (scaled_adj n f i j Hn Hi Hj D). }
    destruct (mat_mul_id n x m _ f Hx Hm) as (i' & Ei' & E2).
    { intros i0 j Hi Hj. apply (scaled_adj n f i0 j Hn Hi Hj D). }
    exists x, i. rewrite Ei in Ei'. injection Ei' as <-. repeat (split; [assumption|]). exact E2.
  - intros A. apply H3. destruct (accepts n d tol); [tauto|reflexivity].
  - intros A D. apply H1; [apply ACC; exact A|exact D].
  - intros Ht A D. assert (Z : d = 0) by (unfold d; rewrite D; apply Rabs_R0).
    unfold accepted in A. destruct (Nat.eqb_spec n 2); [|destruct Ht]; subst; lra || (destruct Ht; lra || lia).
Qed.
Print Assumptions C13_inverse.

(** C13: the inverse is unique, so any other left inverse agrees with it. *)
Theorem C13_inverse_unique :
  forall (cfg : Cfg) (lim : RLim) (n : nat) (m inv x y i : list R) (tol : R),
  (2 <= n <= 4)%nat -> length m = (n * n)%nat -> length inv = (n * n)%nat -> length y = (n * n)%nat ->
  mat_inverse n m inv tol = Ok (true, x) -> mat_IDENTITY n = Ok i -> mat_mul n n n y m = Ok i -> y = x.
Proof.
  intros cfg lim n m inv x y i tol Hn Lm Li Ly E Ei Ey.
  destruct (mat_rep n n m Lm) as (f & Hm). destruct (mat_rep n n y Ly) as (g & Hy).
  destruct (mat_inverse_R n m inv f tol Hn Hm Li) as (H1 & H2 & H3).
  destruct (accepts n (Rabs (detR n f)) tol); [|destruct (H3 eq_refl) as (z & Ez & _); rewrite Ez in E; discriminate].
  destruct (Req_EM_T (detR n f) 0) as [D|D]; [rewrite (H1 eq_refl D) in E; discriminate|].
  destruct (H2 eq_refl D) as (z & Ez & Hz). rewrite Ez in E. injection E as <-.
  destruct (mat_mul_R n n n y m g f Hy Hm) as (p & Ep & Hp). rewrite Ey in Ep. injection Ep as <-.
  assert (Hi : repM n n i idR).
  { destruct (mat_default_spec n n) as (d0 & E0 & H0). destruct (mat_identity_spec n d0 _ H0) as (i' & Ei' & Hi').
    unfold mat_IDENTITY in Ei. rewrite E0 in Ei. cbn [bind] in Ei. rewrite Ei' in Ei. injection Ei as <-. exact Hi'. }
  eapply repM_inj; [exact Hy|]. eapply repM_ext; [exact Hz|]. intros a b Ha Hb. symmetry.
  set (h := fun i j => cofR n f j i * (1 / detR n f)) in *.
  transitivity (mmulR n g (mmulR n f h) a b).
  - rewrite <- (mmulR_id_r n g a b Hb). apply mmulR_ext; [reflexivity|]. intros p Hpp. symmetry.
    apply (scaled_adj n f p b Hn Hpp Hb D).
  - rewrite <- mmulR_assoc. transitivity (mmulR n idR h a b); [|apply mmulR_id_l; exact Ha].
    apply mmulR_ext; [|reflexivity]. intros p Hpp. exact (repM_fun _ _ _ _ _ Hp Hi a p Ha Hpp).
Qed.
Print Assumptions C13_inverse_unique.

Example C13_hypotheses_met : exists f, repM 2 2 [2; 0; 0; 3] f /\ detR 2 f <> 0 /\ 1 <= Rabs (detR 2 f).
Proof.
  exists (fun i j => nth (j * 2 + i) [2; 0; 0; 3] 0). split; [apply repM_nth; reflexivity|].
  rewrite detR_2. cbn. rewrite Rabs_pos_eq; lra.
Qed.

(** C14.  Minors, cofactors, adjugate.  [cutR f r c] is f without row r and
    column c, [cofR n f r c] the signed minor (Spec.v). *)
Theorem C14_minor :
  forall (cfg : Cfg) (lim : RLim) (n : nat) (m minor : list R) (f : nat -> nat -> R) (r c : nat),
  (2 <= n <= 5)%nat -> repM n n m f -> length minor = ((n - 1) * (n - 1))%nat -> (r < n)%nat -> (c < n)%nat ->
  exists d x, mat_get_minor n m minor r c = Ok (d, x) /\
    repM (n - 1) (n - 1) x (cutR f r c) /\ d = detR (n - 1) (cutR f r c) /\ mat_det (n - 1) x = Ok d.
Proof.
  intros cfg lim n m minor f r c Hn Hm Hl Hr Hc. destruct (mat_rep (n - 1) (n - 1) minor Hl) as (g & Hg).
  destruct (mat_get_minor_R n m minor f g r c Hn Hm Hg Hr Hc) as ([d x] & E & -> & Hx).
  exists (detR (n - 1) (cutR f r c)), x. split; [exact E|]. split; [exact Hx|]. split; [reflexivity|].
  apply mat_det_R; [lia|exact Hx].
Qed.
Print Assumptions C14_minor.

(** For every size at all: the cells that land in the minor. *)
Theorem C14_minor_cells :
  forall (cfg : Cfg) (T : Type) (ST : Scalar T) (n : nat) (m minor x : list T) (f : nat -> nat -> T) (r c : nat) (d : T),
  repM n n m f -> length minor = ((n - 1) * (n - 1))%nat -> (r < n)%nat -> (c < n)%nat ->
  mat_get_minor n m minor r c = Ok (d, x) ->
  repM (n - 1) (n - 1) x (fun i j => f (if (i <? r)%nat then i else S i) (if (j <? c)%nat then j else S j)).
Proof.
  intros cfg T ST n m minor x f r c d Hm Hl Hr Hc E. destruct (mat_rep (n - 1) (n - 1) minor Hl) as (g & Hg).
  unfold mat_get_minor in E. destruct (minor_cells n m minor f g r c Hm Hg Hr Hc) as ([y ro] & E2 & Hy).
  rewrite E2 in E. cbn [bind] in E. apply bind_ok_inv in E as (d' & _ & E). injection E as _ <-. exact Hy.
Qed.
Print Assumptions C14_minor_cells.

Theorem C14_cofactors_adjugate :
  forall (cfg : Cfg) (lim : RLim) (n : nat) (m out : list R) (f : nat -> nat -> R),
  repM n n m f -> length out = (n * n)%nat ->
  ((2 <= n <= 5)%nat ->
   returns (mat_get_cofactors n (Val m) out) (fun x => repM n n x (cofR n f)) /\
   returns (mat_get_adjugate n (Val m) out) (fun x => repM n n x (fun i j => cofR n f j i))) /\
  ((2 <= n <= 4)%nat ->
   exists a d s i, mat_get_adjugate n (Val m) out = Ok a /\ mat_det n m = Ok d /\ mat_IDENTITY n = Ok i /\
     mat_mul_s n n i d = Ok s /\ mat_mul n n n m a = Ok s /\ mat_mul n n n a m = Ok s).
Proof.
  intros cfg lim n m out f Hm Hl. destruct (mat_rep n n out Hl) as (g & Hg). split.
  - intros Hn. split; [exact (mat_get_cofactors_R n m out f g Hn Hm Hg)|exact (mat_get_adjugate_R n m out f g Hn Hm Hg)].
  - intros Hn. destruct (mat_get_adjugate_R n m out f g ltac:(lia) Hm Hg) as (a & Ea & Ha).
    destruct (mat_default_spec n n) as (d0 & E0 & H0). destruct (mat_identity_spec n d0 _ H0) as (i & Ei & Hi).
    destruct (mat_map_s_spec n n (fun x => Ok (smul x (detR n f))) i _ (fun p q => idR p q * detR n f) Hi) as (s & Es & Hs);
      [reflexivity|].
    exists a, (detR n f), s, i. split; [exact Ea|]. split; [apply mat_det_R; auto; lia|].
    split; [unfold mat_IDENTITY; rewrite E0; exact Ei|]. split; [exact Es|]. split.
    + destruct (mat_mul_R n n n m a f _ Hm Ha) as (p & Ep & Hp). rewrite Ep. f_equal. eapply repM_inj; [exact Hp|].
      eapply repM_ext; [exact Hs|]. intros u v Hu Hv. cbv beta. rewrite (adj_left n f u v Hn Hu Hv). ring.
    + destruct (mat_mul_R n n n a m _ f Ha Hm) as (p & Ep & Hp). rewrite Ep. f_equal. eapply repM_inj; [exact Hp|].
      eapply repM_ext; [exact Hs|]. intros u v Hu Hv. cbv beta. rewrite (adj_right n f u v Hn Hu Hv). ring.
Qed.
Print Assumptions C14_cofactors_adjugate.

Example C14_hypotheses_met : repM 3 3 [1; 0; 0; 0; 1; 0; 0; 0; 1] idR /\ length [0; 0; 0; 0] = ((3 - 1) * (3 - 1))%nat.
Proof. split; [exact (repM_33 idR)|reflexivity]. Qed.

(** C15.  Matrix times vector: every element type and shape ... *)
Theorem C15_mat_vec :
  forall (cfg : Cfg) (T : Type) (ST : Scalar T) (M N : nat) (m v : list T) (f : nat -> nat -> T) (g : nat -> T),
  repM M N m f -> repV N v g ->
  returns (mat_mul_vec M N m v) (fun x => repV M x (fun i => ssum N (fun j => smul (f i j) (g j)))).
Proof. intros. apply mat_mul_vec_spec; assumption. Qed.
Print Assumptions C15_mat_vec.

(** ... and the laws of linear maps over the reals. *)
Theorem C15_linear :
  forall (cfg : Cfg) (lim : RLim) (M N P : nat) (a b u v w : list R) (k : R),
  length a = (M * N)%nat -> length b = (N * P)%nat -> length v = P -> length u = N -> length w = N ->
  (exists ab bv r, mat_mul M N P a b = Ok ab /\ mat_mul_vec N P b v = Ok bv /\
     mat_mul_vec M P ab v = Ok r /\ mat_mul_vec M N a bv = Ok r) /\
  (exists uw au aw r, vec_add N u w = Ok uw /\ mat_mul_vec M N a u = Ok au /\ mat_mul_vec M N a w = Ok aw /\
     vec_add M au aw = Ok r /\ mat_mul_vec M N a uw = Ok r) /\
  (exists ku au r, vec_mul_s N u k = Ok ku /\ mat_mul_vec M N a u = Ok au /\
     vec_mul_s M au k = Ok r /\ mat_mul_vec M N a ku = Ok r) /\
  (exists i, mat_IDENTITY N = Ok i /\ mat_mul_vec N N i u = Ok u).
Proof.
  intros cfg lim M N P a b u v w k La Lb Lv Lu Lw.
  destruct (mat_rep M N a La) as (f & Ha). destruct (mat_rep N P b Lb) as (g & Hb).
  pose proof (repV_nth P v 0 Lv) as Hv. pose proof (repV_nth N u 0 Lu) as Hu. pose proof (repV_nth N w 0 Lw) as Hw.
  set (fv := fun i => nth i v 0) in *. set (fu := fun i => nth i u 0) in *. set (fw := fun i => nth i w 0) in *.
  destruct (mat_mul_vec_R M N a u f fu Ha Hu) as (au & Eau & Hau).
  destruct (mat_mul_vec_R M N a w f fw Ha Hw) as (aw & Eaw & Haw).
  split; [|split; [|split]].
  - destruct (mat_mul_R M N P a b f g Ha Hb) as (ab & Eab & Hab).
    destruct (mat_mul_vec_R N P b v g fv Hb Hv) as (bv & Ebv & Hbv).
    destruct (mat_mul_vec_R M P ab v _ fv Hab Hv) as (r & Er & Hr).
    destruct (mat_mul_vec_R M N a bv f _ Ha Hbv) as (r' & Er' & Hr').
    exists ab, bv, r. repeat (split; [assumption|]). rewrite Er'. f_equal. eapply repV_inj; [exact Hr'|].
    eapply repV_ext; [exact Hr|]. intros i _. apply mvecR_assoc.
  - destruct (vec_zip_spec N (fun x y : R => Ok (x + y)) u w fu fw (fun i => fu i + fw i) Hu Hw (fun _ _ => eq_refl)) as (uw & Euw & Huw).
    destruct (vec_zip_spec M (fun x y : R => Ok (x + y)) au aw _ _ (fun i => mvecR N f fu i + mvecR N f fw i) Hau Haw (fun _ _ => eq_refl)) as (r & Er & Hr).
    destruct (mat_mul_vec_R M N a uw f _ Ha Huw) as (r' & Er' & Hr').
    exists uw, au, aw, r. repeat (split; [assumption|]). rewrite Er'. f_equal. eapply repV_inj; [exact Hr'|].
    eapply repV_ext; [exact Hr|]. intros i _; cbv beta. unfold mvecR. rewrite <- rsum_plus. apply rsum_ext; intros; ring.
  - destruct (vec_map_spec N (fun x : R => Ok (x * k)) u fu (fun i => fu i * k) Hu (fun _ _ => eq_refl)) as (ku & Eku & Hku).
    destruct (vec_map_spec M (fun x : R => Ok (x * k)) au _ (fun i => mvecR N f fu i * k) Hau (fun _ _ => eq_refl)) as (r & Er & Hr).
    destruct (mat_mul_vec_R M N a ku f _ Ha Hku) as (r' & Er' & Hr').
    exists ku, au, r. repeat (split; [assumption|]). rewrite Er'. f_equal. eapply repV_inj; [exact Hr'|].
    eapply repV_ext; [exact Hr|]. intros i _; cbv beta. unfold mvecR. rewrite <- rsum_scal_r. apply rsum_ext; intros; ring.
  - destruct (mat_default_spec N N) as (d0 & E0 & H0). destruct (mat_identity_spec N d0 _ H0) as (i & Ei & Hi).
    exists i. unfold mat_IDENTITY. rewrite E0. split; [exact Ei|].
    destruct (mat_mul_vec_R N N i u idR fu Hi Hu) as (r & Er & Hr). rewrite Er. f_equal.
    eapply repV_inj; [|exact Hu]. eapply repV_ext; [exact Hr|]. intros j Hj. apply mvecR_id; exact Hj.
Qed.
Print Assumptions C15_linear.

Example C15_hypotheses_met : length [1; 2; 3; 4; 5; 6] = (2 * 3)%nat /\ length [1; 0; 2] = 3%nat.
Proof. split; reflexivity. Qed.

(** C16.  An (n+1) x (n+1) matrix applied to an n-vector. *)
Lemma mat_mul_hom_R {cfg : Cfg} {lim : RLim} n m v f g :
  repM (n + 1) (n + 1) m f -> repV n v g ->
  let h i := mvecR n f g i + f i n in
  mat_mul_hom (n + 1) (n + 1) n m v =
  if Reqb (h n) 0 && negb (n =? 0)%nat then NonFin else Ok (map (fun i => h i / h n) (seq 0 n)).
Proof.
  intros Hm Hv h. unfold mat_mul_hom. rewrite Nat.add_sub, Nat.add_1_r in *. rewrite for_last by lia.
  assert (TMP : forall r, (r < S n)%nat -> for_ 0 n (fun c tmp =>
             b <- vat n v c ;; a <- mat_at (S n) (S n) m r c ;; Ok (sadd tmp (smul b a))) szero = Ok (mvecR n f g r)).
  { intros r Hr. rewrite (for_sum n (fun c => g c * f r c)).
    - rewrite ssum_R. f_equal. apply rsum_ext; intros; ring.
    - intros c a Hc. rewrite (vat_ok n v g), (mat_at_ok (S n) (S n) m f) by (auto; lia). reflexivity. }
  match goal with |- (x <- for_ 0 n ?b ?z ;; _) = _ =>
    assert (F : returns (for_ 0 n b z) (fun r => repV n r h)) end.
  { eapply fill1_all; [apply vec_default_rep|]. intros r l Hr Hl; cbv beta.
    rewrite TMP by lia. cbn [bind]. destruct (Nat.ltb_spec r n); [|lia].
    rewrite (mat_at_ok (S n) (S n) m f) by (auto; lia). cbn [bind]. rewrite vset_ok by exact Hr. reflexivity. }
  destruct F as (x & -> & Hx). cbn [bind]. cbv beta. rewrite TMP by lia. cbn [bind].
  rewrite Nat.ltb_irrefl. rewrite (mat_at_ok (S n) (S n) m f) by (auto; lia). cbn [bind].
  change (sadd (mvecR n f g n) (f n n)) with (h n). clear TMP.
  destruct (Reqb_spec (h n) 0) as [Z|Z].
  - destruct (Nat.eqb_spec n 0) as [->|Hn]; cbn [andb negb].
    + rewrite for_empty by lia. f_equal. destruct Hx as [Hl _]. destruct x; [reflexivity|discriminate].
    + rewrite for_step by lia. rewrite (vat_ok n x h) by (auto; lia). cbn [bind]. cbn [sdiv RScalar].
      rewrite Reqb_true by exact Z. reflexivity.
  - cbn [andb].
    destruct (vec_map_assign_spec n (fun y => sdiv y (h n)) x h (fun i => h i / h n) Hx) as (y & E & Hy).
    { intros i _. apply sdiv_R; exact Z. }
    unfold vec_map_assign in E. rewrite E. f_equal. exact (repV_inj _ _ _ _ Hy (repV_map_seq n _)).
Qed.

Theorem C16_homogeneous_transform :
  forall (cfg : Cfg) (lim : RLim) (n : nat) (m v : list R) (f : nat -> nat -> R) (g : nat -> R),
  repM (n + 1) (n + 1) m f -> repV n v g ->
  let v1 := fun j => if (j <? n)%nat then g j else 1 in           (* (v, 1) *)
  let h := fun i => mvecR (n + 1) f v1 i in                       (* m * (v, 1) *)
  (h n <> 0 -> returns (mat_mul_hom (n + 1) (n + 1) n m v) (fun r => repV n r (fun i => h i / h n))) /\
  (h n = 0 -> (0 < n)%nat -> mat_mul_hom (n + 1) (n + 1) n m v = NonFin) /\
  (forall g1 g2, h n <> 0 -> length g1 = (n + 1)%nat -> length g2 = n ->
     exists vh mv r, vec_to_hom (n + 1) g1 v = Ok vh /\ mat_mul_vec (n + 1) (n + 1) m vh = Ok mv /\
       vec_from_hom n g2 mv = Ok r /\ mat_mul_hom (n + 1) (n + 1) n m v = Ok r).
Proof.
  intros cfg lim n m v f g Hm Hv v1 h.
  assert (HH : forall i, h i = mvecR n f g i + f i n).
  { intros i. unfold h, mvecR, v1. rewrite Nat.add_1_r. cbn [rsum]. rewrite Nat.ltb_irrefl. f_equal; [|ring].
    apply rsum_ext. intros j Hj. destruct (Nat.ltb_spec j n); [reflexivity|lia]. }
  pose proof (mat_mul_hom_R n m v f g Hm Hv) as E. cbv beta zeta in E. rewrite <- (HH n) in E.
  assert (R0 : h n <> 0 -> returns (mat_mul_hom (n + 1) (n + 1) n m v) (fun r => repV n r (fun i => h i / h n))).
  { intros Hne. rewrite E, Reqb_false by exact Hne. cbn [andb]. apply returns_ok.
    eapply repV_ext; [apply repV_map_seq|]. intros i _; cbv beta. rewrite <- HH. reflexivity. }
  split; [exact R0|]. split.
  - intros Hz Hn. rewrite E, Reqb_true by exact Hz. destruct (Nat.eqb_spec n 0); [lia|reflexivity].
  - intros g1 g2 Hne L1 L2. destruct (R0 Hne) as (r & Er & Hr).
    destruct (vec_to_hom_spec n g1 v _ g (repV_nth (n + 1) g1 0 L1) Hv) as (vh & Evh & Hvh).
    destruct (mat_mul_vec_R (n + 1) (n + 1) m vh f _ Hm Hvh) as (mv & Emv & Hmv).
    exists vh, mv, r. split; [exact Evh|]. split; [exact Emv|]. split; [|exact Er].
    unfold vec_from_hom. rewrite (vat_ok (n + 1) mv _ n Hmv) by lia. cbn [bind]. fold v1. change (mvecR (n + 1) f v1 n) with (h n).
    change (mvecR (n + 1) f (fun i => if (i <? n)%nat then g i else sone)) with h in Hmv |- *.
    rewrite sdiv_R by exact Hne. cbn [bind].
    destruct (fill1_all n g2 (fun i => nth i g2 0) (fun i => h i / h n)
      (fun i v0 => a <- vat (n + 1) mv i ;; wr v0 i (smul a (sone / h n))) (repV_nth n g2 0 L2)) as (y & Ey & Hy).
    { intros i l Hi _; cbv beta. rewrite (vat_ok (n + 1) mv h) by (auto; lia). cbn [bind]. f_equal. cbn. field. exact Hne. }
    rewrite Ey. f_equal. exact (repV_inj _ _ _ _ Hy Hr).
Qed.
Print Assumptions C16_homogeneous_transform.

Example C16_hypotheses_met : repM (1 + 1) (1 + 1) [1; 0; 0; 1] idR /\ repV 1 [5] (fun _ => 5) /\
  mvecR (1 + 1) idR (fun j => if (j <? 1)%nat then 5 else 1) 1 <> 0.
Proof.
  split; [exact (repM_22 idR)|]. split; [split; [reflexivity|intros [|i] H; [reflexivity|lia]]|].
  unfold mvecR, idR. cbn. lra.
Qed.
