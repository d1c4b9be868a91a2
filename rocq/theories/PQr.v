(** Property C76: QR decomposition. *)
From Verif Require Export MMisc LMatrixR LVectorR Spec5 PFrustum.
Local Open Scope R_scope.

Lemma rsum_idR n k (f : nat -> R) : (k < n)%nat -> rsum n (fun i => f i * idR i k) = f k.
Proof.
  intros H. rewrite (rsum_single n k (fun i => f i * idR i k) H).
  - unfold idR. rewrite Nat.eqb_refl. ring.
  - intros i Hi Hne. unfold idR. apply Nat.eqb_neq in Hne. rewrite Hne. ring.
Qed.
Lemma rsum_cut n j (f : nat -> R) : (j <= n)%nat -> (forall i, (i < n)%nat -> (j <= i)%nat -> f i = 0) -> rsum n f = rsum j f.
Proof.
  intros H Hz. replace n with (j + (n - j))%nat by lia. rewrite rsum_split.
  rewrite (rsum_zero' (n - j)) by (intros i Hi; apply Hz; lia). ring.
Qed.

Section QR.
Context {cfg : Cfg} {lim : RLim}.
Variables (M N : nat) (A : list R) (fA : nat -> nat -> R).
Hypothesis HA : repM M N A fA.
Hypothesis HMN : (N <= M)%nat.

Section Col.
Variables (fQ fR : nat -> nat -> R) (j : nat).
Hypothesis Hj : (j < N)%nat.
Let d (l : nat) : R := dotR M (fun k => fQ k l) (fun k => fA k j).
Let fv (i k : nat) : R := fA k j - rsum i (fun l => fQ k l * d l).

Lemma qr_inner_spec Q U v q a : repM M M Q fQ -> repM N N U fR -> repV M v (fun k => fA k j) -> repV M q (fun i => nth i q 0) -> repV M a (fun i => nth i a 0) ->
  returns (for_ 0 j (qr_inner M N A j) (Q, U, v, q, a)) (fun s => let '(Q', R', v', q', a') := s in
    Q' = Q /\ repM N N R' (fun r c => if (c =? j)%nat && (r <? j)%nat then d r else fR r c) /\ repV M v' (fv j) /\
    length q' = M /\ length a' = M).
Proof.
  intros HQ HR Hv Hq Ha.
  eapply returns_impl; [apply (for_inv (fun i s => let '(Q', R', v', q', a') := s in
    Q' = Q /\ repM N N R' (fun r c => if (c =? j)%nat && (r <? i)%nat then d r else fR r c) /\ repV M v' (fv i) /\
    length q' = M /\ length a' = M))|].
  - lia.
  - split; [reflexivity|]. split; [eapply repM_ext; [exact HR|intros r c _ _; cbn; destruct (r <? 0)%nat eqn:E; [apply Nat.ltb_lt in E; lia|rewrite andb_false_r; reflexivity]]|].
    split; [eapply repV_ext; [exact Hv|intros k Hk; unfold fv; cbn; ring]|]. split; [apply Hq|apply Ha].
  - intros i [[[[Q' R'] v'] q'] a'] Hi (-> & HR' & Hv' & Lq & La). unfold qr_inner.
    eapply returns_bind; [eapply (mat_get_column_into_spec M M Q fQ i q'); [exact HQ|apply (repV_nth M q' 0); exact Lq|lia]|].
    intros q2 Hq2. cbv beta in Hq2.
    eapply returns_bind; [eapply (mat_get_column_into_spec M N A fA j a'); [exact HA|apply (repV_nth M a' 0); exact La|lia]|].
    intros a2 Ha2. cbv beta in Ha2.
    rewrite (vec_dot_R M q2 a2 _ _ Hq2 Ha2). cbn [bind]. fold (d i).
    eapply returns_bind; [eapply (mat_put_rep N N R' _ i j (d i) HR'); lia|]. intros R2 HR2. cbv beta in HR2.
    rewrite (mat_at_ok N N R2 _ i j HR2) by lia. rewrite !Nat.eqb_refl. cbn [andb bind].
    eapply returns_bind; [apply (vec_map_spec M (fun a => Ok (smul a (d i))) q2 _ (fun k => fQ k i * d i) Hq2); reflexivity|]. intros w Hw.
    eapply returns_bind; [apply (vec_zip_assign_spec M (fun a b => Ok (ssub a b)) v' (Val w) (fv i) (fun k => fQ k i * d i) (fun k => fv i k - fQ k i * d i)); [exact Hv'|exact Hw|reflexivity]|].
    intros v2 Hv2. apply returns_ok. split; [reflexivity|]. split; [|split; [|split; [apply Hq2|apply Ha2]]].
    + eapply repM_ext; [exact HR2|]. intros r c Hr Hc. cbv beta.
      destruct (Nat.eqb_spec c j) as [->|Hc']; cbn [andb]; [|rewrite andb_false_r; reflexivity].
      rewrite andb_true_r. destruct (Nat.eqb_spec r i) as [->|Hr'].
      * replace (i <? S i)%nat with true by (symmetry; apply Nat.ltb_lt; lia). reflexivity.
      * destruct (Nat.ltb_spec r i), (Nat.ltb_spec r (S i)); auto; lia.
    + eapply repV_ext; [exact Hv2|]. intros k Hk. unfold fv. cbn [rsum]. ring.
  - intros [[[[Q' R'] v'] q'] a'] H. exact H.
Qed.
End Col.

(** The state after [j] columns. *)
Definition qr_inv (j : nat) (s : @qr_state R) : Prop :=
  let '(Q, U, v, q, a) := s in exists fQ fR (X : nat -> nat -> R),
  repM M M Q fQ /\ repM N N U fR /\ length v = M /\ length q = M /\ length a = M /\
  orthonormal_cols M j fQ /\
  (forall r c, (r < M)%nat -> (c < M)%nat -> (j <= c)%nat -> fQ r c = 0) /\
  (forall r c, (r < M)%nat -> (c < j)%nat -> fA r c = rsum N (fun l => fQ r l * fR l c)) /\
  (forall r c, (r < N)%nat -> (c < N)%nat -> (c < r)%nat \/ (j <= c)%nat -> fR r c = 0) /\
  (forall c, (c < j)%nat -> 0 < fR c c) /\
  (forall r k, (r < M)%nat -> (k < j)%nat -> fQ r k = rsum N (fun c => fA r c * X c k)) /\
  (forall c k, (k < c)%nat -> X c k = 0).
(** Outcome of the run: all invariants, or a zero pivot caused by a dependency. *)
Definition qr_post (j : nat) (r : res qr_state) : Prop :=
  match r with
  | Ok s => qr_inv j s
  | NonFin => ~ lin_indep M N fA
  | _ => False
  end.

Lemma vec_div_zero v : length v = M -> (0 < M)%nat -> vec_div_s M v (0 : R) = NonFin.
Proof.
  intros HL HM. unfold vec_div_s, vec_map, for_. rewrite Nat.sub_0_r. destruct M as [|m]; [lia|].
  destruct v as [|x v]; [discriminate HL|]. cbn [for_n].
  rewrite (vat_ok (S m) (x :: v) (fun i => nth i (x :: v) 0) 0) by (try apply repV_nth; auto; lia).
  cbn [bind]. rewrite sdiv_zero. reflexivity.
Qed.

Lemma qr_step j s : (j < N)%nat -> qr_inv j s -> qr_post (S j) (qr_column M N A j s).
Proof.
  destruct s as [[[[Q U] v] q] a]. intros Hj (fQ & fR & X & HQ & HR & Lv & Lq & La & HO & HZ & HF & HT & HD & HX & HX0).
  unfold qr_column.
  destruct (mat_get_column_into_spec M N A fA j v _ HA (repV_nth M v 0 Lv) Hj) as (v1 & -> & Hv1). cbn [bind].
  destruct (qr_inner_spec fQ fR j Hj Q U v1 q a HQ HR Hv1 (repV_nth M q 0 Lq) (repV_nth M a 0 La)) as ([[[[Q2 R2] v2] q2] a2] & -> & -> & HR2 & Hv2 & Lq2 & La2).
  cbn [bind]. set (d := fun l => dotR M (fun k => fQ k l) (fun k => fA k j)) in *.
  set (fv := fun k => fA k j - rsum j (fun l => fQ k l * d l)) in *.
  rewrite (vec_length_R M v2 fv Hv2). cbn [bind]. set (w := lenR M fv).
  destruct (mat_put_rep N N R2 _ j j w HR2 Hj Hj) as (R3 & -> & HR3). cbn [bind].
  rewrite (mat_at_ok N N R3 _ j j HR3) by lia. rewrite !Nat.eqb_refl. cbn [andb bind].
  (* v as a combination of the columns of A *)
  set (y := fun c => idR c j - rsum j (fun l => X c l * d l)).
  assert (EV : forall r, (r < M)%nat -> fv r = rsum N (fun c => fA r c * y c)).
  { intros r Hr. unfold y, fv. rewrite (rsum_ext N _ (fun c => fA r c * idR c j - fA r c * rsum j (fun l => X c l * d l))) by (intros; ring).
    rewrite rsum_minus, rsum_idR by exact Hj. f_equal.
    rewrite (rsum_ext j _ (fun l => rsum N (fun c => fA r c * X c l * d l))).
    - rewrite rsum_swap. apply rsum_ext. intros c Hc. rewrite <- rsum_scal. apply rsum_ext. intros l Hl. ring.
    - intros l Hl. rewrite HX by assumption. rewrite <- rsum_scal_r. reflexivity. }
  assert (Yj : y j = 1).
  { unfold y. rewrite rsum_zero'; [unfold idR; rewrite Nat.eqb_refl; ring|]. intros l Hl. rewrite HX0 by lia. ring. }
  assert (Yz : forall c, (j < c)%nat -> y c = 0).
  { intros c Hc. unfold y. rewrite rsum_zero'; [unfold idR; destruct (Nat.eqb_spec c j); [lia|ring]|]. intros l Hl. rewrite HX0 by lia. ring. }
  destruct (Req_dec w 0) as [W|W].
  - rewrite W, vec_div_zero; [|apply Hv2|lia]. cbn [bind]. intros HI.
    assert (F : y j = 0). { apply (HI y); [|exact Hj]. intros i Hi. rewrite <- EV by exact Hi. apply (lenR_zero M fv W i Hi). }
    lra.
  - assert (Wp : 0 < w) by (pose proof (lenR_nonneg M fv); unfold w in *; lra).
    destruct (vec_map_spec M (fun a => sdiv a w) v2 fv (fun k => fv k / w) Hv2) as (v3' & E3 & H3); [intros i Hi; apply sdiv_R, W|].
    unfold vec_div_s. rewrite E3. cbn [bind].
    destruct (mat_set_column_spec M M Q fQ j v3' _ HQ H3 ltac:(lia)) as (Q3 & -> & HQ3). cbn [bind qr_post].
    set (fQ3 := fun i c => if (c =? j)%nat then fv i / w else fQ i c) in *.
    assert (Q3j : forall r, fQ3 r j = fv r / w) by (intros; unfold fQ3; rewrite Nat.eqb_refl; reflexivity).
    assert (Q3o : forall r c, c <> j -> fQ3 r c = fQ r c) by (intros r c Hc; unfold fQ3; destruct (Nat.eqb_spec c j); [congruence|reflexivity]).
    set (fR3 := fun i c => if (i =? j)%nat && (c =? j)%nat then w else if (c =? j)%nat && (i <? j)%nat then d i else fR i c) in *.
    change (repM N N R3 fR3) in HR3.
    assert (R3jj : fR3 j j = w) by (unfold fR3; rewrite Nat.eqb_refl; reflexivity).
    assert (R3j : forall r, (r < j)%nat -> fR3 r j = d r).
    { intros r Hr. unfold fR3. rewrite Nat.eqb_refl. destruct (Nat.eqb_spec r j); [lia|]. destruct (Nat.ltb_spec r j); [reflexivity|lia]. }
    assert (R3o : forall r c, c <> j \/ (j < r)%nat -> fR3 r c = fR r c).
    { intros r c Hc. unfold fR3. destruct (Nat.eqb_spec c j); [|rewrite !andb_false_r; reflexivity]. destruct Hc as [Hc|Hc]; [congruence|].
      destruct (Nat.eqb_spec r j); [lia|]. destruct (Nat.ltb_spec r j); [lia|reflexivity]. }
    clearbody fQ3 fR3.
    (* v is orthogonal to the previous columns *)
    assert (OV : forall k, (k < j)%nat -> dotR M (fun r => fQ r k) fv = 0).
    { intros k Hk. unfold fv. rewrite dotR_minus_r. fold (d k).
      assert (E : dotR M (fun r => fQ r k) (fun r => rsum j (fun l => fQ r l * d l)) = rsum j (fun l => d l * idR l k)).
      { unfold dotR. rewrite (rsum_ext M _ (fun r => rsum j (fun l => fQ r k * (fQ r l * d l)))) by (intros; rewrite rsum_scal; reflexivity).
        rewrite rsum_swap. apply rsum_ext. intros l Hl.
        rewrite (rsum_ext M _ (fun r => d l * (fQ r l * fQ r k))) by (intros; ring). rewrite rsum_scal. f_equal. exact (HO l k Hl Hk). }
      rewrite E, rsum_idR by exact Hk. ring. }
    assert (VV : dotR M fv fv = w * w) by (unfold w; rewrite lenR_sq; reflexivity).
    exists fQ3, fR3, (fun c k => if (k =? j)%nat then y c / w else X c k).
    split; [exact HQ3|]. split; [exact HR3|]. split; [apply Hv2|]. split; [exact Lq2|]. split; [exact La2|]. split; [|split; [|split; [|split; [|split; [|split]]]]].
    + intros i k Hi Hk.
      destruct (Nat.eq_dec i j) as [->|Ni]; destruct (Nat.eq_dec k j) as [->|Nk].
      * rewrite (dotR_ext M _ _ (fun r => / w * fv r) (fun r => / w * fv r)) by (intros; rewrite Q3j; unfold Rdiv; ring).
        rewrite dotR_scal_l, dotR_scal_r, VV. unfold idR. rewrite Nat.eqb_refl. field. exact W.
      * rewrite (dotR_ext M _ _ (fun r => / w * fv r) (fun r => fQ r k)) by (intros; rewrite ?Q3j, ?Q3o by lia; auto; unfold Rdiv; ring).
        rewrite dotR_scal_l, dotR_sym, OV by lia. unfold idR. destruct (Nat.eqb_spec j k); [lia|ring].
      * rewrite (dotR_ext M _ _ (fun r => fQ r i) (fun r => / w * fv r)) by (intros; rewrite ?Q3j, ?Q3o by lia; auto; unfold Rdiv; ring).
        rewrite dotR_scal_r, OV by lia. unfold idR. destruct (Nat.eqb_spec i j); [lia|ring].
      * rewrite (dotR_ext M _ _ (fun r => fQ r i) (fun r => fQ r k)) by (intros; apply Q3o; lia). apply HO; lia.
    + intros r c Hr Hc Hjc. rewrite Q3o by lia. apply HZ; lia.
    + intros r c Hr Hc. destruct (Nat.eq_dec c j) as [->|Nc].
      * rewrite (rsum_cut N (S j)) by (try lia; intros i Hi1 Hi2; rewrite Q3o, HZ by lia; ring). cbn [rsum].
        rewrite Q3j, R3jj. rewrite (rsum_ext j _ (fun l => fQ r l * d l)) by (intros l Hl; rewrite Q3o, R3j by lia; reflexivity).
        unfold fv. field. exact W.
      * rewrite (HF r c Hr) by lia. apply rsum_ext. intros l Hl. rewrite R3o by (left; exact Nc).
        destruct (Nat.eq_dec l j) as [->|Nl]; [|rewrite Q3o by exact Nl; reflexivity].
        rewrite (HT j c) by lia. ring.
    + intros r c Hr Hc Hrc. rewrite R3o by lia. apply HT; lia.
    + intros c Hc. destruct (Nat.eq_dec c j) as [->|Nc]; [rewrite R3jj; exact Wp|]. rewrite R3o by auto. apply HD; lia.
    + intros r k Hr Hk. destruct (Nat.eqb_spec k j) as [->|Nk].
      * rewrite Q3j, EV by exact Hr. rewrite (rsum_ext N (fun c => fA r c * (y c / w)) (fun c => fA r c * y c * / w)) by (intros; unfold Rdiv; ring).
        rewrite rsum_scal_r. reflexivity.
      * rewrite Q3o by exact Nk. apply HX; lia.
    + intros c k Hck. cbv beta. destruct (Nat.eqb_spec k j) as [->|Nk]; [rewrite Yz by exact Hck; unfold Rdiv; ring|apply HX0, Hck].
Qed.

Lemma qr_loop s : qr_inv 0 s -> qr_post N (for_ 0 N (qr_column M N A) s).
Proof.
  intros H0. unfold for_. rewrite Nat.sub_0_r.
  assert (G : forall n j s, (j + n = N)%nat -> qr_inv j s -> qr_post N (for_n n j (qr_column M N A) s)).
  { induction n as [|n IH]; intros j t E I; cbn [for_n].
    - rewrite Nat.add_0_r in E. subst j. exact I.
    - pose proof (qr_step j t ltac:(lia) I) as P. destruct (qr_column M N A j t) as [t'| | |]; cbn [bind qr_post] in *; try contradiction; auto.
      apply IH; [lia|exact P]. }
  apply (G N 0%nat s); [lia|exact H0].
Qed.
End QR.

(** What it means that (Q, R) is a QR decomposition of A. *)
Definition is_qr (M N : nat) (A Q U : nat -> nat -> R) : Prop :=
  orthonormal_cols M N Q /\ upper_tri N U /\ (forall c, (c < N)%nat -> 0 < U c c) /\
  forall r c, (r < M)%nat -> (c < N)%nat -> A r c = mmulR N Q U r c.

Section C76.
Context {cfg : Cfg} {lim : RLim}.

Lemma qr_indep M N A Q U : is_qr M N A Q U -> lin_indep M N A.
Proof.
  intros (HO & HU & HD & HE) x Hx.
  (* U x = 0 *)
  assert (RX : forall k, (k < N)%nat -> rsum N (fun c => U k c * x c) = 0).
  { intros k Hk. transitivity (rsum M (fun r => Q r k * rsum N (fun c => A r c * x c))).
    - rewrite (rsum_ext M _ (fun r => rsum N (fun l => Q r k * Q r l * rsum N (fun c => U l c * x c)))).
      + rewrite rsum_swap. rewrite (rsum_ext N (fun l => rsum M _) (fun l => idR k l * rsum N (fun c => U l c * x c))).
        * rewrite (rsum_ext N (fun l => idR k l * _) (fun l => rsum N (fun c => U l c * x c) * idR l k)).
          { rewrite (rsum_idR N k (fun l => rsum N (fun c => U l c * x c)) Hk). reflexivity. }
          intros l Hl. unfold idR. rewrite (Nat.eqb_sym k l). ring.
        * intros l Hl. rewrite rsum_scal_r. f_equal. exact (HO k l Hk Hl).
      + intros r Hr. rewrite (rsum_ext N (fun c => A r c * x c) (fun c => rsum N (fun l => Q r l * (U l c * x c)))).
        * rewrite rsum_swap. rewrite <- rsum_scal. apply rsum_ext. intros l Hl. rewrite rsum_scal. ring.
        * intros c Hc. rewrite HE by assumption. unfold mmulR. rewrite <- rsum_scal_r. apply rsum_ext. intros; ring.
    - apply rsum_zero'. intros r Hr. rewrite Hx by exact Hr. ring. }
  (* back substitution *)
  assert (B : forall n c, (n <= N)%nat -> (N - n <= c)%nat -> (c < N)%nat -> x c = 0).
  { induction n as [|n IH]; intros c Hn Hc1 Hc2; [lia|]. destruct (Nat.eq_dec c (N - S n)) as [->|]; [|apply IH; lia].
    pose proof (RX (N - S n)%nat ltac:(lia)) as E. set (k := (N - S n)%nat) in *.
    rewrite (rsum_single N k) in E; [|lia|].
    - apply Rmult_integral in E as [E|E]; [|exact E]. pose proof (HD k ltac:(lia)). lra.
    - intros i Hi Hne. destruct (Nat.lt_ge_cases i k) as [L|L]; [rewrite HU by lia; ring|]. rewrite (IH i) by lia. ring. }
  intros c Hc. apply (B N c); lia.
Qed.

(** C76: for M >= N and independent columns. *)
Theorem C76_qr_decomposition M N A Q U fA : (N <= M)%nat -> repM M N A fA -> length Q = (M * M)%nat -> length U = (N * N)%nat ->
  lin_indep M N fA ->
  exists Q' R' fQ fR, qr_decompose M N A Q U = Ok (Q', R') /\ repM M M Q' fQ /\ repM N N R' fR /\
  is_qr M N fA fQ fR /\ (forall r c, (r < M)%nat -> (N <= c < M)%nat -> fQ r c = 0).
Proof.
  intros HMN HA LQ LR HI. unfold qr_decompose.
  destruct (mat_rep M M Q LQ) as (fQ & HQ). destruct (mat_rep N N U LR) as (fR & HR).
  destruct (mat_assign_value_spec M M Q fQ 0 HQ) as (Q1 & E1 & HQ1). destruct (mat_assign_value_spec N N U fR 0 HR) as (R1 & E2 & HR1).
  cbn [szero RScalar]. rewrite E1. cbn [bind]. rewrite E2. cbn [bind].
  pose proof (qr_loop M N A fA HA HMN (Q1, R1, vec_default M, vec_default M, vec_default M)) as P.
  destruct (for_ 0 N (qr_column M N A) _) as [[[[[Q2 R2] v2] q2] a2]| | |]; cbn [qr_post] in P; cbn [bind].
  - destruct P as (gQ & gR & X & HQ2 & HR2 & _ & _ & _ & HO & HZ & HF & HT & HD & _).
    { exists (fun _ _ => 0), (fun _ _ => 0), (fun _ _ => 0). repeat (split; [first [assumption|apply repeat_length]|]).
      split; [intros i k Hi; lia|]. repeat split; intros; try lia; reflexivity. }
    exists Q2, R2, gQ, gR. split; [reflexivity|]. split; [exact HQ2|]. split; [exact HR2|]. split.
    + split; [exact HO|]. split; [intros r c Hr Hc L; apply HT; auto|]. split; [exact HD|]. exact HF.
    + intros r c Hr Hc. apply HZ; lia.
  - exfalso. apply P. exists (fun _ _ => 0), (fun _ _ => 0), (fun _ _ => 0). repeat (split; [first [assumption|apply repeat_length]|]).
    split; [intros i k Hi; lia|]. repeat split; intros; try lia; reflexivity.
  - exfalso. apply P. exists (fun _ _ => 0), (fun _ _ => 0), (fun _ _ => 0). repeat (split; [first [assumption|apply repeat_length]|]).
    split; [intros i k Hi; lia|]. repeat split; intros; try lia; reflexivity.
  - exfalso. apply P; [|exact HI]. exists (fun _ _ => 0), (fun _ _ => 0), (fun _ _ => 0). repeat (split; [first [assumption|apply repeat_length]|]).
    split; [intros i k Hi; lia|]. repeat split; intros; try lia; reflexivity.
Qed.
(** C76: dependent columns end in a division by zero. *)
Theorem C76_qr_dependent M N A Q U fA : (N <= M)%nat -> repM M N A fA -> length Q = (M * M)%nat -> length U = (N * N)%nat ->
  ~ lin_indep M N fA -> qr_decompose M N A Q U = NonFin.
Proof.
  intros HMN HA LQ LR HI. unfold qr_decompose.
  destruct (mat_rep M M Q LQ) as (fQ & HQ). destruct (mat_rep N N U LR) as (fR & HR).
  destruct (mat_assign_value_spec M M Q fQ 0 HQ) as (Q1 & E1 & HQ1). destruct (mat_assign_value_spec N N U fR 0 HR) as (R1 & E2 & HR1).
  cbn [szero RScalar]. rewrite E1. cbn [bind]. rewrite E2. cbn [bind].
  assert (I0 : qr_inv M N fA 0 (Q1, R1, vec_default M, vec_default M, vec_default M)).
  { exists (fun _ _ => 0), (fun _ _ => 0), (fun _ _ => 0). repeat (split; [first [assumption|apply repeat_length]|]).
    split; [intros i k Hi; lia|]. repeat split; intros; try lia; reflexivity. }
  pose proof (qr_loop M N A fA HA HMN _ I0) as P.
  destruct (for_ 0 N (qr_column M N A) _) as [[[[[Q2 R2] v2] q2] a2]| | |]; cbn [qr_post] in P; cbn [bind]; try contradiction; [|reflexivity].
  exfalso. apply HI. destruct P as (gQ & gR & X & HQ2 & HR2 & _ & _ & _ & HO & HZ & HF & HT & HD & _).
  apply (qr_indep M N fA gQ gR). split; [exact HO|]. split; [intros r c Hr Hc L; apply HT; auto|]. split; [exact HD|exact HF].
Qed.
Example C76_hypotheses_met : lin_indep 3 2 (fun i j => match i, j with 0%nat, 0%nat => 1 | 1%nat, 0%nat => 2 | 1%nat, 1%nat => 3 | 2%nat, 1%nat => 1 | _, _ => 0 end).
Proof.
  intros x Hx c Hc. pose proof (Hx 0%nat ltac:(lia)) as H0. pose proof (Hx 2%nat ltac:(lia)) as H2. cbn in H0, H2.
  destruct c as [|[|c]]; [lra|lra|lia].
Qed.
End C76.
Print Assumptions C76_qr_decomposition.
Print Assumptions C76_qr_dependent.
