(** Orders, comparisons and searches on the Vector model. *)
From Verif Require Export LVector.

(** A strict weak order on the values satisfying [good]: what std::map,
    std::sort, std::min_element require of a comparison. *)
Record strict_weak {T} (good : T -> Prop) (lt : T -> T -> bool) : Prop := {
  sw_irrefl : forall a, good a -> lt a a = false;
  sw_trans : forall a b c, good a -> good b -> good c ->
    lt a b = true -> lt b c = true -> lt a c = true;
  sw_cotrans : forall a b c, good a -> good b -> good c ->
    lt a c = true -> lt a b = true \/ lt b c = true
}.

(** Lexicographic comparison of [n] components. *)
Definition lex {T} (lt : T -> T -> bool) (n : nat) (f g : nat -> T) : Prop :=
  exists k, k < n /\ lt (f k) (g k) = true /\
    forall i, i < k -> lt (f i) (g i) = false /\ lt (g i) (f i) = false.

Section Lex.
Context {T : Type} (good : T -> Prop) (lt : T -> T -> bool) (W : strict_weak good lt).

Lemma sw_asym a b : good a -> good b -> lt a b = true -> lt b a = false.
Proof.
  intros Ga Gb H. destruct (lt b a) eqn:E; auto.
  pose proof (sw_trans _ _ W a b a Ga Gb Ga H E). rewrite (sw_irrefl _ _ W a Ga) in H0. discriminate.
Qed.

Lemma sw_inc_trans a b c : good a -> good b -> good c ->
  lt a b = false -> lt b c = false -> lt a c = false.
Proof.
  intros Ga Gb Gc H1 H2. destruct (lt a c) eqn:E; auto.
  destruct (sw_cotrans _ _ W a b c Ga Gb Gc E); congruence.
Qed.

Definition goodf n (f : nat -> T) := forall i, i < n -> good (f i).

Lemma lex_irrefl n f : goodf n f -> ~ lex lt n f f.
Proof. intros G (k & Hk & H & _). rewrite (sw_irrefl _ _ W) in H by (apply G; exact Hk). discriminate. Qed.

Lemma lex_trans n f g h : goodf n f -> goodf n g -> goodf n h ->
  lex lt n f g -> lex lt n g h -> lex lt n f h.
Proof.
  intros Gf Gg Gh (k1 & Hk1 & E1 & I1) (k2 & Hk2 & E2 & I2).
  exists (Nat.min k1 k2). split; [lia|]. split.
  - destruct (Nat.lt_trichotomy k1 k2) as [H|[H|H]].
    + rewrite Nat.min_l by lia. destruct (I2 k1 H) as [A B].
      destruct (sw_cotrans _ _ W (f k1) (h k1) (g k1)) as [K|K]; auto; congruence.
    + subst k2. rewrite Nat.min_id. eapply (sw_trans _ _ W _ (g k1)); auto.
    + rewrite Nat.min_r by lia. destruct (I1 k2 H) as [A B].
      destruct (sw_cotrans _ _ W (g k2) (f k2) (h k2)) as [K|K]; auto; congruence.
  - intros i Hi. destruct (I1 i ltac:(lia)) as [A B], (I2 i ltac:(lia)) as [C D].
    assert (good (f i)) by (apply Gf; lia). assert (good (g i)) by (apply Gg; lia).
    assert (good (h i)) by (apply Gh; lia).
    split; [apply (sw_inc_trans _ (g i)) | apply (sw_inc_trans _ (g i))]; auto.
Qed.

Lemma lex_cotrans n f g h : goodf n f -> goodf n g -> goodf n h ->
  lex lt n f h -> lex lt n f g \/ lex lt n g h.
Proof.
  intros Gf Gg Gh (k & Hk & E & I).
  assert (K : forall m, m <= k ->
    (forall i, i < m -> lt (f i) (g i) = false /\ lt (g i) (f i) = false) \/
    lex lt n f g \/ lex lt n g h).
  { induction m as [|m IH]; intros Hm; [left; intros; lia|].
    destruct (IH ltac:(lia)) as [IH'|IH']; [|right; exact IH'].
    assert (good (f m)) by (apply Gf; lia). assert (good (g m)) by (apply Gg; lia).
    assert (good (h m)) by (apply Gh; lia). destruct (I m ltac:(lia)) as [A B].
    destruct (lt (f m) (g m)) eqn:E1.
    - right; left. exists m. split; [lia|]. auto.
    - destruct (lt (g m) (f m)) eqn:E2.
      + right; right. exists m. split; [lia|]. split.
        * destruct (sw_cotrans _ _ W (g m) (h m) (f m)) as [K|K]; auto; congruence.
        * intros i Hi. destruct (IH' i Hi) as [P Q], (I i ltac:(lia)) as [P' Q'].
          assert (good (f i)) by (apply Gf; lia). assert (good (g i)) by (apply Gg; lia).
          assert (good (h i)) by (apply Gh; lia).
          split; apply (sw_inc_trans _ (f i)); auto.
      + left. intros i Hi. destruct (Nat.eq_dec i m) as [->|Hne]; [auto|apply IH'; lia]. }
  destruct (K k ltac:(lia)) as [IH|IH]; [|exact IH].
  assert (good (f k)) by (apply Gf; lia). assert (good (g k)) by (apply Gg; lia).
  assert (good (h k)) by (apply Gh; lia).
  destruct (sw_cotrans _ _ W (f k) (g k) (h k)) as [K1|K1]; auto.
  - left. exists k. auto.
  - right. exists k. split; [exact Hk|]. split; [exact K1|].
    intros i Hi. destruct (IH i Hi) as [P Q], (I i Hi) as [P' Q'].
    assert (good (f i)) by (apply Gf; lia). assert (good (g i)) by (apply Gg; lia).
    assert (good (h i)) by (apply Gh; lia).
    split; apply (sw_inc_trans _ (f i)); auto.
Qed.

(** Neither less means incomparable in every component. *)
Lemma lex_incomparable n f g :
  ~ lex lt n f g -> ~ lex lt n g f ->
  forall i, i < n -> lt (f i) (g i) = false /\ lt (g i) (f i) = false.
Proof.
  intros H1 H2. 
  assert (K : forall m, m <= n -> forall i, i < m -> lt (f i) (g i) = false /\ lt (g i) (f i) = false).
  { induction m as [|m IH]; intros Hm i Hi; [lia|].
    destruct (Nat.eq_dec i m) as [->|Hne]; [|apply IH; lia].
    split.
    - destruct (lt (f m) (g m)) eqn:E; auto. exfalso. apply H1. exists m. split; [lia|]. split; auto.
      intros j Hj; apply IH; lia.
    - destruct (lt (g m) (f m)) eqn:E; auto. exfalso. apply H2. exists m. split; [lia|]. split; auto.
      intros j Hj; destruct (IH ltac:(lia) j Hj); auto. }
  intros i Hi; apply (K n); auto.
Qed.
End Lex.

Section V.
Context {cfg : Cfg} {T : Type} {ST : Scalar T}.

Lemma vec_less_spec M (u v : list T) fu fv :
  repV M u fu -> repV M v fv ->
  returns (vec_less M u v) (fun b => b = true <-> lex sltb M fu fv).
Proof.
  intros Hu Hv. unfold vec_less.
  eapply returns_bind;
    [eapply (forr_inv (fun k (_ : unit) => forall i, i < k -> sltb (fu i) (fv i) = false /\ sltb (fv i) (fu i) = false)
       (fun b => b = true <-> lex sltb M fu fv)); [lia|intros; lia|]|].
  - intros k x Hk IH. rewrite (vat_ok M u fu), (vat_ok M v fv) by (auto; lia). cbn [bind].
    destruct (sltb (fu k) (fv k)) eqn:E1.
    + apply returns_ok. split; auto. intros _. exists k. repeat split; auto; try lia; apply IH; auto.
    + destruct (sltb (fv k) (fu k)) eqn:E2.
      * apply returns_ok. split; [discriminate|]. intros (j & Hj & E & I).
        destruct (Nat.lt_trichotomy j k) as [H|[H|H]].
        -- destruct (IH j H); congruence.
        -- congruence.
        -- destruct (I k H); congruence.
      * apply returns_ok. intros i Hi. destruct (Nat.eq_dec i k) as [->|Hne]; [auto|apply IH; lia].
  - intros [s|b] H; apply returns_ok; cbv beta.
    + split; [discriminate|]. intros (j & Hj & E & I). destruct (H j Hj); congruence.
    + exact H.
Qed.

Lemma vec_equals_spec M (u v : list T) fu fv tol :
  repV M u fu -> repV M v fv ->
  returns (vec_equals M u v tol)
    (fun b => b = true <-> forall i, i < M -> sleb tol (sabs (ssub (fu i) (fv i))) = false).
Proof.
  intros Hu Hv. unfold vec_equals.
  eapply returns_bind;
    [eapply (forr_inv (fun k (_ : unit) => forall i, i < k -> sleb tol (sabs (ssub (fu i) (fv i))) = false)
       (fun b => b = true <-> forall i, i < M -> sleb tol (sabs (ssub (fu i) (fv i))) = false));
     [lia|intros; lia|]|].
  - intros k x Hk IH. rewrite (vat_ok M u fu), (vat_ok M v fv) by (auto; lia). cbn [bind].
    destruct (sleb tol (sabs (ssub (fu k) (fv k)))) eqn:E1; apply returns_ok.
    + split; [discriminate|]. intros H. rewrite H in E1 by lia. discriminate.
    + intros i Hi. destruct (Nat.eq_dec i k) as [->|Hne]; [auto|apply IH; lia].
  - intros [s|b] H; apply returns_ok; cbv beta.
    + tauto.
    + exact H.
Qed.

Lemma vec_eq_spec M (u v : list T) fu fv :
  repV M u fu -> repV M v fv ->
  (vec_eq u v = true <-> forall i, i < M -> sbits (fu i) (fv i) = true).
Proof.
  unfold vec_eq. revert u v fu fv. induction M as [|M IH]; intros u v fu fv [Lu Hu] [Lv Hv].
  - destruct u, v; cbn in *; try discriminate. split; auto. intros _ i Hi; lia.
  - destruct u as [|a u], v as [|b v]; cbn in Lu, Lv; try discriminate. cbn [list_bits].
    assert (Ea : a = fu 0) by (specialize (Hu 0 ltac:(lia)); cbn in Hu; congruence).
    assert (Eb : b = fv 0) by (specialize (Hv 0 ltac:(lia)); cbn in Hv; congruence).
    specialize (IH u v (fun i => fu (S i)) (fun i => fv (S i))).
    rewrite andb_true_iff, IH; clear IH.
    + split.
      * intros [H0 H] [|i] Hi; [congruence|apply H; lia].
      * intros H; split; [rewrite Ea, Eb; apply H; lia|]. intros i Hi; apply H; lia.
    + split; [lia|]. intros i Hi. apply (Hu (S i)); lia.
    + split; [lia|]. intros i Hi. apply (Hv (S i)); lia.
Qed.

(** std::min_element with a strict weak order on the elements. *)
Lemma min_element_spec (good : T -> Prop) comp M (v : list T) fv :
  strict_weak good comp -> 0 < M -> repV M v fv -> (forall i, i < M -> good (fv i)) ->
  returns (min_element_by comp v) (fun k =>
    k < M /\ (forall j, j < M -> comp (fv j) (fv k) = false) /\
    (forall j, j < k -> comp (fv k) (fv j) = true)).
Proof.
  intros W HM Hv G. unfold min_element_by. rewrite (repV_len _ _ _ Hv).
  eapply returns_impl; [eapply (for_inv (fun m k =>
    k < m /\ (forall j, j < m -> comp (fv j) (fv k) = false) /\
    (forall j, j < k -> comp (fv k) (fv j) = true))); [lia| |]|auto].
  - split; [lia|]. split; [|intros; lia]. intros j Hj. assert (j = 0) by lia. subst.
    apply (sw_irrefl _ _ W), G; exact HM.
  - intros i k Hi (Hk & Hmin & Hfirst).
    rewrite (repV_rd M v fv i), (repV_rd M v fv k) by (auto; lia). cbn [bind]. apply returns_ok.
    destruct (comp (fv i) (fv k)) eqn:E.
    + split; [lia|]. split.
      * intros j Hj. destruct (Nat.eq_dec j i) as [->|Hne]; [apply (sw_irrefl _ _ W), G; lia|].
        destruct (comp (fv j) (fv i)) eqn:E2; auto.
        exfalso. assert (comp (fv j) (fv k) = true) by (apply (sw_trans _ _ W _ (fv i)); auto; apply G; lia).
        rewrite Hmin in H by lia. discriminate.
      * intros j Hj. destruct (sw_cotrans _ _ W (fv i) (fv j) (fv k)) as [K|K];
          try apply G; auto; try lia. rewrite Hmin in K by lia. discriminate.
    + split; [lia|]. split; [|exact Hfirst].
      intros j Hj. destruct (Nat.eq_dec j i) as [->|Hne]; [exact E|apply Hmin; lia].
Qed.

Lemma max_element_flip comp (v : list T) :
  max_element_by comp v = min_element_by (fun a b => comp b a) v.
Proof. reflexivity. Qed.

Lemma strict_weak_flip (good : T -> Prop) comp :
  strict_weak good comp -> strict_weak good (fun a b => comp b a).
Proof.
  intros W; constructor.
  - intros a Ga; apply (sw_irrefl _ _ W a Ga).
  - intros a b c Ga Gb Gc H1 H2; apply (sw_trans _ _ W c b a); auto.
  - intros a b c Ga Gb Gc H. destruct (sw_cotrans _ _ W c b a); auto.
Qed.

Lemma max_element_spec (good : T -> Prop) comp M (v : list T) fv :
  strict_weak good comp -> 0 < M -> repV M v fv -> (forall i, i < M -> good (fv i)) ->
  returns (max_element_by comp v) (fun k =>
    k < M /\ (forall j, j < M -> comp (fv k) (fv j) = false) /\
    (forall j, j < k -> comp (fv j) (fv k) = true)).
Proof.
  intros W HM Hv G. rewrite max_element_flip.
  apply (min_element_spec good (fun a b => comp b a) M v fv (strict_weak_flip _ _ W) HM Hv G).
Qed.
End V.
