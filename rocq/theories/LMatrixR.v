(** The matrix model over the reals. *)
From Verif Require Export LMatrix LVectorR.
Local Open Scope R_scope.

Section MR.
Context {cfg : Cfg} {lim : RLim}.
Implicit Types m : list R.

Lemma mat_mul_R M N P m o f fo : repM M N m f -> repM N P o fo ->
  returns (mat_mul M N P m o) (fun x => repM M P x (mmulR N f fo)).
Proof.
  intros Hm Ho. eapply returns_impl; [apply (mat_mul_spec M N P m o f fo Hm Ho)|].
  intros x Hx. eapply repM_ext; [exact Hx|]. intros i j Hi Hj; cbv beta. rewrite ssum_R. reflexivity.
Qed.

Lemma mat_mul_vec_R M N m v f g : repM M N m f -> repV N v g ->
  returns (mat_mul_vec M N m v) (fun x => repV M x (mvecR N f g)).
Proof.
  intros Hm Hv. eapply returns_impl; [apply (mat_mul_vec_spec M N m v f g Hm Hv)|].
  intros x Hx. eapply repV_ext; [exact Hx|]. intros i Hi; cbv beta. rewrite ssum_R. reflexivity.
Qed.
End MR.

Lemma mmulR_ext n A B A' B' i j :
  (forall p, (p < n)%nat -> A i p = A' i p) -> (forall p, (p < n)%nat -> B p j = B' p j) ->
  mmulR n A B i j = mmulR n A' B' i j.
Proof. intros HA HB. apply rsum_ext. intros p Hp. rewrite HA, HB by exact Hp. reflexivity. Qed.

Lemma mmulR_assoc n p A B C i j : mmulR p (mmulR n A B) C i j = mmulR n A (mmulR p B C) i j.
Proof.
  unfold mmulR.
  rewrite (rsum_ext p _ (fun k => rsum n (fun q => A i q * B q k * C k j))) by (intros; rewrite rsum_scal_r; reflexivity).
  rewrite rsum_swap. apply rsum_ext. intros q Hq. rewrite <- rsum_scal. apply rsum_ext. intros; ring.
Qed.

Lemma mmulR_id_l n A i j : (i < n)%nat -> mmulR n idR A i j = A i j.
Proof.
  intros Hi. unfold mmulR. rewrite (rsum_single n i); auto.
  - unfold idR. rewrite Nat.eqb_refl. ring.
  - intros k Hk Hne. unfold idR. destruct (Nat.eqb_spec i k); [congruence|ring].
Qed.

Lemma mmulR_id_r n A i j : (j < n)%nat -> mmulR n A idR i j = A i j.
Proof.
  intros Hj. unfold mmulR. rewrite (rsum_single n j); auto.
  - unfold idR. rewrite Nat.eqb_refl. ring.
  - intros k Hk Hne. unfold idR. destruct (Nat.eqb_spec k j); [congruence|ring].
Qed.

Lemma mmulR_plus_l n A B C i j : mmulR n (fun i j => A i j + B i j) C i j = mmulR n A C i j + mmulR n B C i j.
Proof. unfold mmulR. rewrite <- rsum_plus. apply rsum_ext; intros; ring. Qed.

Lemma mmulR_plus_r n A B C i j : mmulR n C (fun i j => A i j + B i j) i j = mmulR n C A i j + mmulR n C B i j.
Proof. unfold mmulR. rewrite <- rsum_plus. apply rsum_ext; intros; ring. Qed.

Lemma mmulR_transpose n A B i j : mmulR n A B j i = mmulR n (fun p q => B q p) (fun p q => A q p) i j.
Proof. unfold mmulR. apply rsum_ext; intros; ring. Qed.

Lemma mvecR_assoc n p A B v i : mvecR p (mmulR n A B) v i = mvecR n A (mvecR p B v) i.
Proof.
  unfold mvecR, mmulR.
  rewrite (rsum_ext p _ (fun k => rsum n (fun q => A i q * B q k * v k))) by (intros; rewrite rsum_scal_r; reflexivity).
  rewrite rsum_swap. apply rsum_ext. intros q Hq. rewrite <- rsum_scal. apply rsum_ext. intros; ring.
Qed.

Lemma mvecR_id n v i : (i < n)%nat -> mvecR n idR v i = v i.
Proof.
  intros Hi. unfold mvecR. rewrite (rsum_single n i); auto.
  - unfold idR. rewrite Nat.eqb_refl. ring.
  - intros k Hk Hne. unfold idR. destruct (Nat.eqb_spec i k); [congruence|ring].
Qed.

(** Loops in which some iteration throws. *)
Lemma for_n_throw {S : Type} (Inv : nat -> S -> Prop) (body : nat -> S -> res S) :
  forall n i s,
  Inv i s ->
  (forall k x, (i <= k < i + n)%nat -> Inv k x -> body k x = Throw \/ returns (body k x) (Inv (Datatypes.S k))) ->
  (exists k, (i <= k < i + n)%nat /\ forall x, Inv k x -> body k x = Throw) ->
  for_n n i body s = Throw.
Proof.
  induction n as [|n IH]; intros i s H0 Hb (k & Hk & HT); [lia|]. cbn [for_n].
  destruct (Hb i s ltac:(lia) H0) as [->|(s' & E & Hs')]; [reflexivity|]. rewrite E. cbn [bind].
  destruct (Nat.eq_dec k i) as [->|Hne]; [rewrite (HT s H0) in E; discriminate|].
  apply IH; [exact Hs'| |].
  - intros q x Hq; apply Hb; lia.
  - exists k. split; [lia|exact HT].
Qed.

Lemma for_throw {S : Type} (Inv : nat -> S -> Prop) (body : nat -> S -> res S) lo hi s :
  Inv lo s ->
  (forall k x, (lo <= k < hi)%nat -> Inv k x -> body k x = Throw \/ returns (body k x) (Inv (Datatypes.S k))) ->
  (exists k, (lo <= k < hi)%nat /\ forall x, Inv k x -> body k x = Throw) ->
  for_ lo hi body s = Throw.
Proof.
  intros H0 Hb (k & Hk & HT). unfold for_. apply (for_n_throw Inv); auto.
  - intros q x Hq; apply Hb; lia.
  - exists k; split; [lia|exact HT].
Qed.
