(** Lemmas for the structured products, sums, extrema and counts. *)
From Verif Require Export LMat6.
Local Open Scope nat_scope.

(** Loops in which some iteration is undefined behaviour. *)
Lemma for_n_ub {S : Type} (Inv : nat -> S -> Prop) (body : nat -> S -> res S) :
  forall n i s,
  Inv i s ->
  (forall k x, i <= k < i + n -> Inv k x -> body k x = UB \/ returns (body k x) (Inv (Datatypes.S k))) ->
  (exists k, i <= k < i + n /\ forall x, Inv k x -> body k x = UB) ->
  for_n n i body s = UB.
Proof.
  induction n as [|n IH]; intros i s H0 Hb (k & Hk & HT); [lia|]. cbn [for_n].
  destruct (Hb i s ltac:(lia) H0) as [->|(s' & E & Hs')]; [reflexivity|]. rewrite E. cbn [bind].
  destruct (Nat.eq_dec k i) as [->|Hne]; [rewrite (HT s H0) in E; discriminate|].
  apply IH; [exact Hs'| |].
  - intros q x Hq; apply Hb; lia.
  - exists k. split; [lia|exact HT].
Qed.

Lemma for_ub {S : Type} (Inv : nat -> S -> Prop) (body : nat -> S -> res S) lo hi s :
  Inv lo s ->
  (forall k x, lo <= k < hi -> Inv k x -> body k x = UB \/ returns (body k x) (Inv (Datatypes.S k))) ->
  (exists k, lo <= k < hi /\ forall x, Inv k x -> body k x = UB) ->
  for_ lo hi body s = UB.
Proof.
  intros H0 Hb (k & Hk & HT). unfold for_. apply (for_n_ub Inv); auto.
  - intros q x Hq; apply Hb; lia.
  - exists k; split; [lia|exact HT].
Qed.

(** Loop nests that write the final value of every cell they touch, in any
    order: the set [S] of cells already final only grows. *)
Definition okS {T} (M N : nat) (h : nat -> nat -> T) (S : nat -> nat -> Prop) (l : list T) : Prop :=
  length l = M * N /\ forall i j, i < M -> j < N -> S i j -> nth_error l (j * M + i) = Some (h i j).

Section OkS.
Context {T : Type}.
Lemma okS_init M N (h : nat -> nat -> T) (S : nat -> nat -> Prop) l :
  length l = M * N -> (forall i j, i < M -> j < N -> ~ S i j) -> okS M N h S l.
Proof. intros H HS. split; [exact H|]. intros i j Hi Hj HH. elim (HS i j Hi Hj HH). Qed.

Lemma okS_impl M N (h : nat -> nat -> T) (S S' : nat -> nat -> Prop) l :
  okS M N h S l -> (forall i j, i < M -> j < N -> S' i j -> S i j) -> okS M N h S' l.
Proof. intros [H1 H2] HI. split; auto. Qed.

Lemma okS_wr M N (h : nat -> nat -> T) (S S' : nat -> nat -> Prop) l r c x :
  okS M N h S l -> r < M -> c < N -> x = h r c ->
  (forall i j, i < M -> j < N -> S' i j -> S i j \/ (i = r /\ j = c)) ->
  returns (wr l (c * M + r) x) (okS M N h S').
Proof.
  intros [H1 H2] Hr Hc -> HI.
  assert (L : c * M + r < length l) by (rewrite H1; apply cell_lt; assumption).
  rewrite wr_ok by exact L. apply returns_ok. split; [rewrite length_upd; exact H1|].
  intros i j Hi Hj HS. destruct (Nat.eq_dec (j * M + i) (c * M + r)) as [E|Hne].
  - destruct (cell_inj M i j r c Hi Hr E) as [-> ->]. rewrite nth_error_upd_same; auto.
  - rewrite nth_error_upd_other by auto. apply H2; auto.
    destruct (HI i j Hi Hj HS) as [|[-> ->]]; [assumption|lia].
Qed.

Lemma okS_done M N (h : nat -> nat -> T) (S : nat -> nat -> Prop) l :
  okS M N h S l -> (forall i j, i < M -> j < N -> S i j) -> repM M N l h.
Proof. intros [H1 H2] HS. split; auto. Qed.
End OkS.

Section L7.
Context {cfg : Cfg} {T : Type} {ST : Scalar T}.

Lemma mat_kronecker_spec M N O P m f right g res0 :
  repM M N m f -> repM O P right g -> length res0 = (M * O) * (N * P) ->
  returns (mat_kronecker M N O P m right res0)
    (fun x => repM (M * O) (N * P) x (fun i j => smul (f (i / O) (j / P)) (g (i mod O) (j mod P)))).
Proof.
  intros Hm Hr Hl. unfold mat_kronecker.
  set (h := fun i j => smul (f (i / O) (j / P)) (g (i mod O) (j mod P))).
  set (S := fun a b c d (i j : nat) => exists a' b' c' d', a' < M /\ b' < N /\ c' < O /\ d' < P /\
              i = O * a' + c' /\ j = P * b' + d' /\
              (a' < a \/ a' = a /\ (b' < b \/ b' = b /\ (c' < c \/ c' = c /\ d' < d)))).
  assert (HS : forall a b c d, a < M -> b < N -> c < O -> d < P -> S a b c d = S a b c d) by reflexivity.
  eapply returns_impl.
  - apply (for_inv (fun a x => okS (M * O) (N * P) h (S a 0 0 0) x)); [lia| |].
    + apply okS_init; [exact Hl|]. intros i j _ _ (a' & b' & c' & d' & H). lia.
    + intros a x Ha Hx. eapply returns_impl.
      * apply (for_inv (fun b x => okS (M * O) (N * P) h (S a b 0 0) x)); [lia|exact Hx|].
        intros b y Hb Hy. eapply returns_impl.
        -- apply (for_inv (fun c x => okS (M * O) (N * P) h (S a b c 0) x)); [lia|exact Hy|].
           intros c z Hc Hz. eapply returns_impl.
           ++ apply (for_inv (fun d x => okS (M * O) (N * P) h (S a b c d) x)); [lia|exact Hz|].
              intros d w Hd Hw. rewrite (mat_at_ok M N m f) by (auto; lia). cbn [bind].
              rewrite (mat_at_ok O P right g) by (auto; lia). cbn [bind].
              rewrite mat_put_ok by nia. eapply okS_wr; [exact Hw|nia|nia| |].
              ** unfold h. rewrite (Nat.mul_comm O a), (Nat.mul_comm P b).
                 rewrite !cell_div, !cell_mod by lia. reflexivity.
              ** intros i j Hi Hj (a' & b' & c' & d' & H1 & H2 & H3 & H4 & E1 & E2 & HL).
                 destruct (Nat.eq_dec a' a), (Nat.eq_dec b' b), (Nat.eq_dec c' c), (Nat.eq_dec d' d);
                   try (left; exists a', b', c', d'; repeat (split; [lia|]); lia).
                 right; subst; auto.
           ++ intros q Hq. eapply okS_impl; [exact Hq|].
              intros i j Hi Hj (a' & b' & c' & d' & H). exists a', b', c', d'. lia.
        -- intros q Hq. eapply okS_impl; [exact Hq|].
           intros i j Hi Hj (a' & b' & c' & d' & H). exists a', b', c', d'. lia.
      * intros q Hq. eapply okS_impl; [exact Hq|].
        intros i j Hi Hj (a' & b' & c' & d' & H). exists a', b', c', d'. lia.
  - intros x Hx. eapply okS_done; [exact Hx|]. intros i j Hi Hj. cbv beta.
    assert (O <> 0) by nia. assert (P <> 0) by nia.
    exists (i / O), (j / P), (i mod O), (j mod P).
    pose proof (Nat.div_mod i O). pose proof (Nat.div_mod j P).
    pose proof (Nat.mod_upper_bound i O). pose proof (Nat.mod_upper_bound j P).
    assert (i / O < M) by (apply Nat.div_lt_upper_bound; lia).
    assert (j / P < N) by (apply Nat.div_lt_upper_bound; lia). lia.
Qed.

Lemma mat_khatri_rao_spec M N O m f right g res0 :
  repM M N m f -> repM O N right g -> length res0 = (M * O) * N ->
  returns (mat_khatri_rao M N O m right res0)
    (fun x => repM (M * O) N x (fun i j => smul (f (i / O) j) (g (i mod O) j))).
Proof.
  intros Hm Hr Hl. unfold mat_khatri_rao.
  set (h := fun i j => smul (f (i / O) j) (g (i mod O) j)).
  set (S := fun a b c (i j : nat) => exists b' c', b' < M /\ c' < O /\ i = O * b' + c' /\
              (j < a \/ j = a /\ (b' < b \/ b' = b /\ c' < c))).
  eapply returns_impl.
  - apply (for_inv (fun a x => okS (M * O) N h (S a 0 0) x)); [lia| |].
    + apply okS_init; [exact Hl|]. intros i j _ _ (b' & c' & H). lia.
    + intros a x Ha Hx. eapply returns_impl.
      * apply (for_inv (fun b x => okS (M * O) N h (S a b 0) x)); [lia|exact Hx|].
        intros b y Hb Hy. eapply returns_impl.
        -- apply (for_inv (fun c x => okS (M * O) N h (S a b c) x)); [lia|exact Hy|].
           intros c z Hc Hz. rewrite (mat_at_ok M N m f) by (auto; lia). cbn [bind].
           rewrite (mat_at_ok O N right g) by (auto; lia). cbn [bind].
           rewrite mat_put_ok by nia. eapply okS_wr; [exact Hz|nia|lia| |].
           ++ unfold h. rewrite (Nat.mul_comm O b). rewrite cell_div, cell_mod by lia. reflexivity.
           ++ intros i j Hi Hj (b' & c' & H1 & H2 & E1 & HL).
              destruct (Nat.eq_dec j a), (Nat.eq_dec b' b), (Nat.eq_dec c' c);
                try (left; exists b', c'; repeat (split; [lia|]); lia).
              right; subst; auto.
        -- intros q Hq. eapply okS_impl; [exact Hq|]. intros i j Hi Hj (b' & c' & H). exists b', c'. lia.
      * intros q Hq. eapply okS_impl; [exact Hq|]. intros i j Hi Hj (b' & c' & H). exists b', c'. lia.
  - intros x Hx. eapply okS_done; [exact Hx|]. intros i j Hi Hj. cbv beta. assert (O <> 0) by nia.
    exists (i / O), (i mod O). pose proof (Nat.div_mod i O). pose proof (Nat.mod_upper_bound i O).
    assert (i / O < M) by (apply Nat.div_lt_upper_bound; lia). lia.
Qed.

Lemma mat_sym_cov_spec M N m f cov :
  repM M N m f -> length cov = M * M ->
  returns (mat_sym_cov M N m cov)
    (fun x => repM M M x (fun i j => ssum N (fun k => smul (f (Nat.min i j) k) (f (Nat.max i j) k)))).
Proof.
  intros Hm Hl. unfold mat_sym_cov.
  set (h := fun i j => ssum N (fun k => smul (f (Nat.min i j) k) (f (Nat.max i j) k))).
  set (S := fun a b (i j : nat) => Nat.min i j < a \/ Nat.min i j = a /\ Nat.max i j < b).
  eapply returns_impl.
  - apply (for_inv (fun a x => okS M M h (S a a) x)); [lia| |].
    + apply okS_init; [exact Hl|]. intros i j _ _ H. unfold S in H. lia.
    + intros a x Ha Hx. eapply returns_impl.
      * apply (for_inv (fun b x => okS M M h (S a b) x)); [lia|exact Hx|].
        intros b y Hb Hy.
        rewrite (for_sum N (fun k => smul (f a k) (f b k)))
          by (intros k acc Hk; rewrite !(mat_at_ok M N m f) by (auto; lia); reflexivity).
        cbn [bind]. rewrite mat_put_ok by lia.
        assert (Eh : h a b = ssum N (fun k => smul (f a k) (f b k)))
          by (unfold h; rewrite Nat.min_l, Nat.max_r by lia; reflexivity).
        assert (Eh' : h b a = ssum N (fun k => smul (f a k) (f b k)))
          by (unfold h; rewrite Nat.min_r, Nat.max_l by lia; reflexivity).
        eapply returns_bind.
        -- eapply (okS_wr M M h (S a b) (fun i j => S a b i j \/ (i = a /\ j = b))); [exact Hy|lia|lia|symmetry; exact Eh|].
           intros i j _ _ H; exact H.
        -- intros z Hz. rewrite mat_put_ok by lia.
           eapply okS_wr; [exact Hz|lia|lia|symmetry; exact Eh'|]. intros i j Hi Hj. unfold S. lia.
      * intros q Hq. eapply okS_impl; [exact Hq|]. intros i j Hi Hj. unfold S. lia.
  - intros x Hx. eapply okS_done; [exact Hx|]. intros i j Hi Hj. unfold S. lia.
Qed.

(** Sums. *)
Lemma mat_columnwise_sum_spec M N m f out g : repM M N m f -> repV N out g ->
  returns (mat_columnwise_sum M N m out) (fun x => repV N x (fun j => ssum M (fun i => f i j))).
Proof.
  intros Hm Ho. unfold mat_columnwise_sum. eapply fill1_all; [exact Ho|]. intros j l Hj Hl. cbv beta.
  rewrite (for_sum M (fun i => f i j)) by (intros i acc Hi; rewrite (mat_at_ok M N m f) by auto; reflexivity).
  cbn [bind]. unfold vset. destruct (Nat.leb_spec N j); [lia|]. reflexivity.
Qed.
End L7.
