(** Proof rules: what it means for a program to return, loops, arrays seen as
    functions. *)
From Verif Require Export Scalar.

(** [returns m P]: the program terminates normally, with a value satisfying
    [P]; no exception, no undefined behaviour, no non-finite result. *)
Definition returns {A} (m : res A) (P : A -> Prop) : Prop :=
  exists a, m = Ok a /\ P a.

(** [repV n l f]: the array [l] is an [n]-vector with components
    [f 0 .. f (n-1)]. *)
Definition repV {T} (n : nat) (l : list T) (f : nat -> T) : Prop :=
  length l = n /\ forall i, i < n -> nth_error l i = Some (f i).

(** [repM M N l f]: the array [l] is an [M] x [N] matrix, column-major, whose
    cell in row [i] and column [j] is [f i j]. *)
Definition repM {T} (M N : nat) (l : list T) (f : nat -> nat -> T) : Prop :=
  length l = M * N /\
  forall i j, i < M -> j < N -> nth_error l (j * M + i) = Some (f i j).

Section Returns.
Context {A B : Type}.

Lemma returns_ok (a : A) (P : A -> Prop) : P a -> returns (Ok a) P.
Proof. intros H; exists a; auto. Qed.

Lemma returns_ok_inv (a : A) (P : A -> Prop) : returns (Ok a) P -> P a.
Proof. intros (x & E & H); injection E as ->; exact H. Qed.

Lemma returns_bind (m : res A) (k : A -> res B) (Q : A -> Prop) (P : B -> Prop) :
  returns m Q -> (forall a, Q a -> returns (k a) P) -> returns (bind m k) P.
Proof.
  intros (a & -> & Ha) Hk; cbn [bind]; apply Hk; exact Ha.
Qed.

Lemma returns_bind_ok (m : res A) (a : A) (k : A -> res B) (P : B -> Prop) :
  m = Ok a -> returns (k a) P -> returns (bind m k) P.
Proof. intros -> H; exact H. Qed.

Lemma returns_impl (m : res A) (Q P : A -> Prop) :
  returns m Q -> (forall a, Q a -> P a) -> returns m P.
Proof. intros (a & E & H) HI; exists a; split; auto. Qed.

Lemma bind_ok_inv (m : res A) (k : A -> res B) (b : B) :
  bind m k = Ok b -> exists a, m = Ok a /\ k a = Ok b.
Proof. destruct m; cbn; try discriminate; eauto. Qed.
End Returns.

Lemma bind_assoc {A B C} (m : res A) (k : A -> res B) (h : B -> res C) :
  bind (bind m k) h = bind m (fun a => bind (k a) h).
Proof. destruct m; reflexivity. Qed.

Lemma for_n_inv {S : Type} (Inv : nat -> S -> Prop) (body : nat -> S -> res S) :
  forall n i s,
  Inv i s ->
  (forall k x, i <= k < i + n -> Inv k x -> returns (body k x) (Inv (Datatypes.S k))) ->
  returns (for_n n i body s) (Inv (i + n)).
Proof.
  induction n as [|n IH]; intros i s H0 Hb; cbn [for_n].
  - apply returns_ok; rewrite Nat.add_0_r; exact H0.
  - eapply returns_bind; [apply Hb; [lia | exact H0]|].
    intros s' Hs'. replace (i + Datatypes.S n) with (Datatypes.S i + n) by lia.
    apply IH; [exact Hs'|]. intros k x Hk; apply Hb; lia.
Qed.

(** The loop rule: an invariant indexed by the loop counter. *)
Lemma for_inv {S : Type} (Inv : nat -> S -> Prop) lo hi (body : nat -> S -> res S) s :
  lo <= hi ->
  Inv lo s ->
  (forall k x, lo <= k < hi -> Inv k x -> returns (body k x) (Inv (Datatypes.S k))) ->
  returns (for_ lo hi body s) (Inv hi).
Proof.
  intros Hle H0 Hb; unfold for_.
  replace hi with (lo + (hi - lo)) at 2 by lia.
  apply for_n_inv; [exact H0|]. intros k x Hk; apply Hb; lia.
Qed.

Lemma for_empty {S : Type} lo hi (body : nat -> S -> res S) s :
  hi <= lo -> for_ lo hi body s = Ok s.
Proof. intros H; unfold for_; replace (hi - lo) with 0 by lia; reflexivity. Qed.

Lemma for_step {S : Type} lo hi (body : nat -> S -> res S) s :
  lo < hi ->
  for_ lo hi body s = (s' <- body lo s ;; for_ (Datatypes.S lo) hi body s').
Proof.
  intros H; unfold for_. destruct (hi - lo) as [|n] eqn:E; [lia|].
  cbn [for_n]; replace (hi - Datatypes.S lo) with n by lia; reflexivity.
Qed.

Lemma for_n_last {S : Type} (body : nat -> S -> res S) :
  forall n i s,
  for_n (Datatypes.S n) i body s = (x <- for_n n i body s ;; body (i + n) x).
Proof.
  induction n as [|n IH]; intros i s.
  - cbn. rewrite Nat.add_0_r. destruct (body i s); reflexivity.
  - change (for_n (Datatypes.S (Datatypes.S n)) i body s)
      with (s' <- body i s ;; for_n (Datatypes.S n) (Datatypes.S i) body s').
    cbn [for_n]. rewrite bind_assoc. destruct (body i s) as [s'| | |]; cbn [bind]; auto.
    specialize (IH (Datatypes.S i) s'); cbn [for_n] in IH. rewrite IH.
    replace (i + Datatypes.S n) with (Datatypes.S i + n) by lia; reflexivity.
Qed.

Lemma for_last {S : Type} lo hi (body : nat -> S -> res S) s :
  lo <= hi ->
  for_ lo (Datatypes.S hi) body s = (x <- for_ lo hi body s ;; body hi x).
Proof.
  intros H; unfold for_. replace (Datatypes.S hi - lo) with (Datatypes.S (hi - lo)) by lia.
  rewrite for_n_last. replace (lo + (hi - lo)) with hi by lia; reflexivity.
Qed.

Lemma for_n_ext {S : Type} (b1 b2 : nat -> S -> res S) :
  forall n i s, (forall k x, i <= k < i + n -> b1 k x = b2 k x) ->
  for_n n i b1 s = for_n n i b2 s.
Proof.
  induction n as [|n IH]; intros i s H; cbn [for_n]; auto.
  rewrite H by lia. destruct (b2 i s); cbn [bind]; auto. apply IH; intros; apply H; lia.
Qed.

Lemma for_ext {S : Type} (b1 b2 : nat -> S -> res S) lo hi s :
  (forall k x, lo <= k < hi -> b1 k x = b2 k x) ->
  for_ lo hi b1 s = for_ lo hi b2 s.
Proof. intros H; apply for_n_ext; intros; apply H; lia. Qed.

(** Loops with early return. *)
Lemma forr_n_inv {S A : Type} (Inv : nat -> S -> Prop) (Done : A -> Prop)
  (body : nat -> S -> res (S + A)) :
  forall n i s,
  Inv i s ->
  (forall k x, i <= k < i + n -> Inv k x ->
     returns (body k x)
       (fun y => match y with inl s' => Inv (Datatypes.S k) s' | inr a => Done a end)) ->
  returns (forr_n n i body s)
    (fun y => match y with inl s' => Inv (i + n) s' | inr a => Done a end).
Proof.
  induction n as [|n IH]; intros i s H0 Hb; cbn [forr_n].
  - apply returns_ok; rewrite Nat.add_0_r; exact H0.
  - eapply returns_bind; [apply Hb; [lia | exact H0]|].
    intros [s'|a] Hy.
    + replace (i + Datatypes.S n) with (Datatypes.S i + n) by lia.
      apply IH; [exact Hy|]. intros k x Hk; apply Hb; lia.
    + apply returns_ok; exact Hy.
Qed.

Lemma forr_inv {S A : Type} (Inv : nat -> S -> Prop) (Done : A -> Prop) lo hi
  (body : nat -> S -> res (S + A)) s :
  lo <= hi ->
  Inv lo s ->
  (forall k x, lo <= k < hi -> Inv k x ->
     returns (body k x)
       (fun y => match y with inl s' => Inv (Datatypes.S k) s' | inr a => Done a end)) ->
  returns (forr lo hi body s)
    (fun y => match y with inl s' => Inv hi s' | inr a => Done a end).
Proof.
  intros Hle H0 Hb; unfold forr.
  pose proof (forr_n_inv Inv Done body (hi - lo) lo s H0) as H.
  replace (lo + (hi - lo)) with hi in H by lia.
  apply H. intros k x Hk; apply Hb; lia.
Qed.

(** Arrays. *)
Section Arrays.
Context {T : Type}.
Implicit Types l : list T.

Lemma length_upd : forall l i x, length (upd l i x) = length l.
Proof. induction l as [|y t IH]; intros [|i] x; cbn; auto. Qed.

Lemma nth_error_upd_same : forall l i x, i < length l -> nth_error (upd l i x) i = Some x.
Proof. induction l as [|y t IH]; intros [|i] x; cbn; intros; try lia; auto. apply IH; lia. Qed.

Lemma nth_error_upd_other : forall l i j x, i <> j -> nth_error (upd l i x) j = nth_error l j.
Proof. induction l as [|y t IH]; intros [|i] [|j] x; cbn; intros; auto; try lia. Qed.

Lemma upd_same_id : forall l i x, nth_error l i = Some x -> upd l i x = l.
Proof.
  induction l as [|y t IH]; intros [|i] x; cbn; intros H; try congruence.
  f_equal; apply IH; exact H.
Qed.

Lemma rd_ok l i x : nth_error l i = Some x -> rd l i = Ok x.
Proof. unfold rd; intros ->; reflexivity. Qed.

Lemma rd_ok_iff l i x : rd l i = Ok x <-> nth_error l i = Some x.
Proof. unfold rd; destruct (nth_error l i); split; congruence. Qed.

Lemma wr_ok l i x : i < length l -> wr l i x = Ok (upd l i x).
Proof. unfold wr; intros H; apply Nat.ltb_lt in H; rewrite H; reflexivity. Qed.

Lemma wr_ub l i x : length l <= i -> wr l i x = UB.
Proof. unfold wr; intros H; apply Nat.ltb_ge in H; rewrite H; reflexivity. Qed.

Lemma rd_ub l i : length l <= i -> rd l i = UB.
Proof. unfold rd; intros H; apply nth_error_None in H; rewrite H; reflexivity. Qed.

Lemma list_eq_nth_error l1 l2 :
  (forall i, nth_error l1 i = nth_error l2 i) -> l1 = l2.
Proof.
  revert l2; induction l1 as [|x t IH]; intros [|y u] H; auto.
  - specialize (H 0); discriminate.
  - specialize (H 0); discriminate.
  - pose proof (H 0) as H0; injection H0 as ->. f_equal; apply IH; intros i; apply (H (S i)).
Qed.

Lemma repV_len n l f : repV n l f -> length l = n.
Proof. intros [H _]; exact H. Qed.

Lemma repV_rd n l f i : repV n l f -> i < n -> rd l i = Ok (f i).
Proof. intros [_ H] Hi; apply rd_ok, H, Hi. Qed.

Lemma repV_wr n l f i x :
  repV n l f -> i < n ->
  wr l i x = Ok (upd l i x) /\
  repV n (upd l i x) (fun k => if k =? i then x else f k).
Proof.
  intros [Hl Hf] Hi; split; [apply wr_ok; lia|]. split; [rewrite length_upd; exact Hl|].
  intros k Hk. destruct (Nat.eqb_spec k i) as [->|Hne].
  - apply nth_error_upd_same; lia.
  - rewrite nth_error_upd_other by congruence; apply Hf, Hk.
Qed.

Lemma repV_ext n l f g :
  repV n l f -> (forall i, i < n -> f i = g i) -> repV n l g.
Proof. intros [Hl Hf] H; split; [exact Hl|]. intros i Hi; rewrite Hf, H; auto. Qed.

Lemma repV_fun n l f g :
  repV n l f -> repV n l g -> forall i, i < n -> f i = g i.
Proof. intros [_ Hf] [_ Hg] i Hi. specialize (Hf i Hi); specialize (Hg i Hi); congruence. Qed.

Lemma repV_inj n l1 l2 f : repV n l1 f -> repV n l2 f -> l1 = l2.
Proof.
  intros [L1 H1] [L2 H2]; apply list_eq_nth_error; intros i.
  destruct (Nat.lt_ge_cases i n) as [Hi|Hi].
  - rewrite H1, H2; auto.
  - assert (E1 : nth_error l1 i = None) by (apply nth_error_None; lia).
    assert (E2 : nth_error l2 i = None) by (apply nth_error_None; lia). congruence.
Qed.

Lemma repV_nth n l d : length l = n -> repV n l (fun i => nth i l d).
Proof. intros H; split; [exact H|]. intros i Hi; apply nth_error_nth'; lia. Qed.

Lemma repV_repeat n (x : T) : repV n (repeat x n) (fun _ => x).
Proof.
  split; [apply repeat_length|]. intros i Hi.
  rewrite nth_error_repeat by exact Hi; reflexivity.
Qed.

Lemma repV_map_seq n (f : nat -> T) : repV n (map f (seq 0 n)) f.
Proof.
  split; [rewrite map_length, seq_length; reflexivity|]. intros i Hi.
  rewrite nth_error_map.
  rewrite (nth_error_nth' (seq 0 n) 0) by (rewrite seq_length; exact Hi).
  rewrite seq_nth by exact Hi; reflexivity.
Qed.

(** Matrix cells. *)
Lemma cell_lt M N i j : i < M -> j < N -> j * M + i < M * N.
Proof. intros; nia. Qed.

Lemma cell_inj M i j i' j' : i < M -> i' < M -> j * M + i = j' * M + i' -> i = i' /\ j = j'.
Proof.
  intros Hi Hi' E.
  assert (j = j') by (destruct (Nat.lt_trichotomy j j') as [H|[H|H]]; [nia|exact H|nia]).
  subst; split; [lia|reflexivity].
Qed.

Lemma cell_surj M N k : k < M * N -> exists i j, i < M /\ j < N /\ k = j * M + i.
Proof.
  intros Hk. assert (HM : M <> 0) by (intros ->; lia).
  exists (k mod M), (k / M).
  repeat split.
  - apply Nat.mod_upper_bound; exact HM.
  - apply Nat.div_lt_upper_bound; [exact HM | exact Hk].
  - rewrite (Nat.div_mod k M HM) at 1; nia.
Qed.

Lemma repM_len M N l f : repM M N l f -> length l = M * N.
Proof. intros [H _]; exact H. Qed.

Lemma repM_rd M N l f i j : repM M N l f -> i < M -> j < N -> rd l (j * M + i) = Ok (f i j).
Proof. intros [_ H] Hi Hj; apply rd_ok, H; assumption. Qed.

Lemma repM_wr M N l f i j x :
  repM M N l f -> i < M -> j < N ->
  wr l (j * M + i) x = Ok (upd l (j * M + i) x) /\
  repM M N (upd l (j * M + i) x)
    (fun r c => if (r =? i) && (c =? j) then x else f r c).
Proof.
  intros [Hl Hf] Hi Hj. pose proof (cell_lt M N i j Hi Hj).
  split; [apply wr_ok; lia|]. split; [rewrite length_upd; exact Hl|].
  intros r c Hr Hc. destruct (Nat.eqb_spec r i) as [->|Hne]; cbn [andb].
  - destruct (Nat.eqb_spec c j) as [->|Hne].
    + apply nth_error_upd_same; lia.
    + rewrite nth_error_upd_other; [apply Hf; assumption|]. intros E.
      apply cell_inj in E; [|lia|lia]. destruct E as [_ E]. congruence.
  - rewrite nth_error_upd_other; [apply Hf; assumption|]. intros E.
    apply cell_inj in E; [|lia|lia]. destruct E as [E _]. congruence.
Qed.

Lemma repM_ext M N l f g :
  repM M N l f -> (forall i j, i < M -> j < N -> f i j = g i j) -> repM M N l g.
Proof. intros [Hl Hf] H; split; [exact Hl|]. intros i j Hi Hj; rewrite Hf, H; auto. Qed.

Lemma repM_fun M N l f g :
  repM M N l f -> repM M N l g -> forall i j, i < M -> j < N -> f i j = g i j.
Proof.
  intros [_ Hf] [_ Hg] i j Hi Hj.
  specialize (Hf i j Hi Hj); specialize (Hg i j Hi Hj); congruence.
Qed.

Lemma repM_inj M N l1 l2 f : repM M N l1 f -> repM M N l2 f -> l1 = l2.
Proof.
  intros [L1 H1] [L2 H2]; apply list_eq_nth_error; intros k.
  destruct (Nat.lt_ge_cases k (M * N)) as [Hk|Hk].
  - destruct (cell_surj M N k Hk) as (i & j & Hi & Hj & ->). rewrite H1, H2; auto.
  - assert (E1 : nth_error l1 k = None) by (apply nth_error_None; lia).
    assert (E2 : nth_error l2 k = None) by (apply nth_error_None; lia). congruence.
Qed.

Lemma repM_nth M N l d : length l = M * N -> repM M N l (fun i j => nth (j * M + i) l d).
Proof.
  intros H; split; [exact H|]. intros i j Hi Hj; apply nth_error_nth'.
  rewrite H; apply cell_lt; assumption.
Qed.

Lemma repM_repeat M N (x : T) : repM M N (repeat x (M * N)) (fun _ _ => x).
Proof.
  split; [apply repeat_length|]. intros i j Hi Hj.
  rewrite nth_error_repeat by (apply cell_lt; assumption); reflexivity.
Qed.

(** A matrix with prescribed cells exists. *)
Lemma repM_map_seq M N (f : nat -> nat -> T) :
  repM M N (map (fun k => f (k mod M) (k / M)) (seq 0 (M * N))) f.
Proof.
  pose proof (repV_map_seq (M * N) (fun k => f (k mod M) (k / M))) as [Hl H].
  split; [exact Hl|]. intros i j Hi Hj.
  rewrite H by (apply cell_lt; assumption). f_equal; f_equal.
  - rewrite Nat.add_comm, Nat.mod_add by lia. apply Nat.mod_small; exact Hi.
  - rewrite Nat.div_add_l by lia. rewrite Nat.div_small by exact Hi; lia.
Qed.

(** A matrix array read as a long vector, and vice versa. *)
Lemma repM_repV M N l f :
  repM M N l f <-> (exists g, repV (M * N) l g /\
                    forall i j, i < M -> j < N -> g (j * M + i) = f i j).
Proof.
  split.
  - intros [Hl Hf]. exists (fun k => f (k mod M) (k / M)). split.
    + split; [exact Hl|]. intros k Hk. destruct (cell_surj M N k Hk) as (i & j & Hi & Hj & ->).
      rewrite Hf by assumption. f_equal; f_equal.
      * rewrite Nat.add_comm, Nat.mod_add by lia. symmetry; apply Nat.mod_small; exact Hi.
      * rewrite Nat.div_add_l by lia. rewrite Nat.div_small by exact Hi; lia.
    + intros i j Hi Hj. f_equal.
      * rewrite Nat.add_comm, Nat.mod_add by lia. apply Nat.mod_small; exact Hi.
      * rewrite Nat.div_add_l by lia. rewrite Nat.div_small by exact Hi; lia.
  - intros (g & [Hl Hg] & H). split; [exact Hl|]. intros i j Hi Hj.
    rewrite Hg by (apply cell_lt; assumption). rewrite H; auto.
Qed.

(** A loop that computes the components [lo..hi) one after the other. *)
Lemma fill1 n l f g lo hi (body : nat -> list T -> res (list T)) :
  lo <= hi -> hi <= n -> repV n l f ->
  (forall i l', lo <= i < hi ->
     repV n l' (fun k => if (lo <=? k) && (k <? i) then g k else f k) ->
     body i l' = wr l' i (g i)) ->
  returns (for_ lo hi body l)
    (fun r => repV n r (fun k => if (lo <=? k) && (k <? hi) then g k else f k)).
Proof.
  intros Hle Hn Hl Hb.
  apply (for_inv (fun i r => repV n r (fun k => if (lo <=? k) && (k <? i) then g k else f k)));
    [exact Hle| |].
  - eapply repV_ext; [exact Hl|]. intros k Hk; cbv beta.
    destruct (Nat.leb_spec lo k), (Nat.ltb_spec k lo); cbn; auto; lia.
  - intros i l' Hi Hl'. rewrite (Hb i l' Hi Hl').
    destruct (repV_wr n l' _ i (g i) Hl' ltac:(lia)) as [E HR]. rewrite E.
    apply returns_ok. eapply repV_ext; [exact HR|]. intros k Hk; cbv beta.
    destruct (Nat.eqb_spec k i) as [->|Hne].
    + destruct (Nat.leb_spec lo i), (Nat.ltb_spec i (S i)); cbn; auto; lia.
    + destruct (Nat.leb_spec lo k), (Nat.ltb_spec k i), (Nat.ltb_spec k (S i)); cbn; auto; lia.
Qed.

(** The common case: all components. *)
Lemma fill1_all n l f g (body : nat -> list T -> res (list T)) :
  repV n l f ->
  (forall i l', i < n ->
     repV n l' (fun k => if k <? i then g k else f k) -> body i l' = wr l' i (g i)) ->
  returns (for_ 0 n body l) (fun r => repV n r g).
Proof.
  intros Hl Hb.
  eapply returns_impl; [apply (fill1 n l f g 0 n body); [lia|lia|exact Hl|]|].
  - intros i l' Hi Hl'; apply Hb; [lia|]. eapply repV_ext; [exact Hl'|]. intros k Hk; reflexivity.
  - intros r Hr; eapply repV_ext; [exact Hr|]. intros k Hk; cbv beta.
    destruct (Nat.ltb_spec k n); auto; lia.
Qed.

(** Two nested loops writing a rectangular block of cells, row by row:
    for( i = r0 .. r1 ) for( j = c0 .. c1 ) cell( i, j ) = g i j. *)
Definition visited_rc (r0 c0 i j r c : nat) : bool :=
  (r0 <=? r) && (r <? i) && (c0 <=? c) || ((r =? i) && (c0 <=? c) && (c <? j)).

Lemma fill2_rc M N l f g r0 r1 c0 c1 (body : nat -> nat -> list T -> res (list T)) :
  r0 <= r1 -> c0 <= c1 -> r1 <= M -> c1 <= N -> repM M N l f ->
  (forall i j l', r0 <= i < r1 -> c0 <= j < c1 ->
     repM M N l' (fun r c =>
       if (r0 <=? r) && (c0 <=? c) && ((r <? i) && (c <? c1) || (r =? i) && (c <? j))
       then g r c else f r c) ->
     body i j l' = wr l' (j * M + i) (g i j)) ->
  returns (for_ r0 r1 (fun i => for_ c0 c1 (body i)) l)
    (fun x => repM M N x (fun r c =>
       if (r0 <=? r) && (c0 <=? c) && ((r <? r1) && (c <? c1)) then g r c else f r c)).
Proof.
  intros Hr Hc HM HN Hl Hb.
  apply (for_inv (fun i x => repM M N x (fun r c =>
       if (r0 <=? r) && (c0 <=? c) && ((r <? i) && (c <? c1)) then g r c else f r c)));
    [exact Hr| |].
  - eapply repM_ext; [exact Hl|]. intros r c _ _; cbv beta.
    destruct (Nat.leb_spec r0 r), (Nat.ltb_spec r r0); cbn; rewrite ?andb_false_r; auto; lia.
  - intros i l1 Hi Hl1.
    eapply returns_impl; [apply (for_inv (fun j x => repM M N x (fun r c =>
       if (r0 <=? r) && (c0 <=? c) && ((r <? i) && (c <? c1) || (r =? i) && (c <? j))
       then g r c else f r c))); [exact Hc| |]|].
    + eapply repM_ext; [exact Hl1|]. intros r c _ _; cbv beta.
      destruct (Nat.leb_spec r0 r), (Nat.leb_spec c0 c), (Nat.ltb_spec r i),
        (Nat.ltb_spec c c1), (Nat.eqb_spec r i), (Nat.ltb_spec c c0); cbn; auto; lia.
    + intros j l2 Hj Hl2. rewrite (Hb i j l2 Hi Hj Hl2).
      destruct (repM_wr M N l2 _ i j (g i j) Hl2 ltac:(lia) ltac:(lia)) as [E HR]. rewrite E.
      apply returns_ok. eapply repM_ext; [exact HR|]. intros r c _ _; cbv beta.
      destruct (Nat.eqb_spec r i) as [->|Hne]; cbn [andb].
      * destruct (Nat.eqb_spec c j) as [->|Hne].
        -- destruct (Nat.leb_spec r0 i), (Nat.leb_spec c0 j), (Nat.ltb_spec i i),
             (Nat.ltb_spec j (S j)); cbn; auto; lia.
        -- destruct (Nat.leb_spec r0 i), (Nat.leb_spec c0 c), (Nat.ltb_spec i i),
             (Nat.ltb_spec c (S j)), (Nat.ltb_spec c j); cbn; auto; lia.
      * rewrite !orb_false_r; reflexivity.
    + intros x Hx. eapply repM_ext; [exact Hx|]. intros r c _ Hcn; cbv beta.
      destruct (Nat.leb_spec r0 r), (Nat.leb_spec c0 c), (Nat.ltb_spec r i),
        (Nat.ltb_spec c c1), (Nat.eqb_spec r i), (Nat.ltb_spec r (S i)); cbn; auto; lia.
Qed.

(** The same, column by column. *)
Lemma fill2_cr M N l f g r0 r1 c0 c1 (body : nat -> nat -> list T -> res (list T)) :
  r0 <= r1 -> c0 <= c1 -> r1 <= M -> c1 <= N -> repM M N l f ->
  (forall i j l', r0 <= i < r1 -> c0 <= j < c1 ->
     repM M N l' (fun r c =>
       if (r0 <=? r) && (c0 <=? c) && ((c <? j) && (r <? r1) || (c =? j) && (r <? i))
       then g r c else f r c) ->
     body j i l' = wr l' (j * M + i) (g i j)) ->
  returns (for_ c0 c1 (fun j => for_ r0 r1 (body j)) l)
    (fun x => repM M N x (fun r c =>
       if (r0 <=? r) && (c0 <=? c) && ((r <? r1) && (c <? c1)) then g r c else f r c)).
Proof.
  intros Hr Hc HM HN Hl Hb.
  eapply returns_impl; [apply (for_inv (fun j x => repM M N x (fun r c =>
       if (r0 <=? r) && (c0 <=? c) && ((r <? r1) && (c <? j)) then g r c else f r c)));
    [exact Hc| |]|intros x Hx; exact Hx].
  - eapply repM_ext; [exact Hl|]. intros r c _ _; cbv beta.
    destruct (Nat.leb_spec c0 c), (Nat.ltb_spec c c0); cbn; rewrite ?andb_false_r; auto; lia.
  - intros j l1 Hj Hl1.
    eapply returns_impl; [apply (for_inv (fun i x => repM M N x (fun r c =>
       if (r0 <=? r) && (c0 <=? c) && ((c <? j) && (r <? r1) || (c =? j) && (r <? i))
       then g r c else f r c))); [exact Hr| |]|].
    + eapply repM_ext; [exact Hl1|]. intros r c _ _; cbv beta.
      destruct (Nat.leb_spec r0 r), (Nat.leb_spec c0 c), (Nat.ltb_spec c j),
        (Nat.ltb_spec r r1), (Nat.eqb_spec c j), (Nat.ltb_spec r r0); cbn; auto; lia.
    + intros i l2 Hi Hl2. rewrite (Hb i j l2 Hi Hj Hl2).
      destruct (repM_wr M N l2 _ i j (g i j) Hl2 ltac:(lia) ltac:(lia)) as [E HR]. rewrite E.
      apply returns_ok. eapply repM_ext; [exact HR|]. intros r c _ _; cbv beta.
      destruct (Nat.eqb_spec c j) as [->|Hne]; cbn [andb].
      * destruct (Nat.eqb_spec r i) as [->|Hne]; cbn [andb].
        -- destruct (Nat.leb_spec r0 i), (Nat.leb_spec c0 j), (Nat.ltb_spec j j),
             (Nat.ltb_spec i (S i)); cbn; auto; lia.
        -- destruct (Nat.leb_spec r0 r), (Nat.leb_spec c0 j), (Nat.ltb_spec j j),
             (Nat.ltb_spec r (S i)), (Nat.ltb_spec r i); cbn; auto; lia.
      * rewrite andb_false_r, !orb_false_r; reflexivity.
    + intros x Hx. eapply repM_ext; [exact Hx|]. intros r c Hrm _; cbv beta.
      destruct (Nat.leb_spec r0 r), (Nat.leb_spec c0 c), (Nat.ltb_spec c j),
        (Nat.ltb_spec r r1), (Nat.eqb_spec c j), (Nat.ltb_spec c (S j)); cbn; auto; lia.
Qed.

(** Full-matrix versions. *)
Lemma fill2_rc_all M N l f g (body : nat -> nat -> list T -> res (list T)) :
  repM M N l f ->
  (forall i j l', i < M -> j < N ->
     repM M N l' (fun r c => if (r <? i) || (r =? i) && (c <? j) then g r c else f r c) ->
     body i j l' = wr l' (j * M + i) (g i j)) ->
  returns (for_ 0 M (fun i => for_ 0 N (body i)) l) (fun x => repM M N x g).
Proof.
  intros Hl Hb.
  eapply returns_impl; [apply (fill2_rc M N l f g 0 M 0 N body); try lia; [exact Hl|]|].
  - intros i j l' Hi Hj Hl'; apply Hb; [lia|lia|]. eapply repM_ext; [exact Hl'|].
    intros r c Hr Hc; cbv beta. destruct (Nat.ltb_spec c N); [|lia]. cbn [Nat.leb andb]. rewrite andb_true_r; reflexivity.
  - intros x Hx. eapply repM_ext; [exact Hx|]. intros r c Hr Hc; cbv beta.
    destruct (Nat.ltb_spec r M), (Nat.ltb_spec c N); cbn; auto; lia.
Qed.

Lemma fill2_cr_all M N l f g (body : nat -> nat -> list T -> res (list T)) :
  repM M N l f ->
  (forall i j l', i < M -> j < N ->
     repM M N l' (fun r c => if (c <? j) || (c =? j) && (r <? i) then g r c else f r c) ->
     body j i l' = wr l' (j * M + i) (g i j)) ->
  returns (for_ 0 N (fun j => for_ 0 M (body j)) l) (fun x => repM M N x g).
Proof.
  intros Hl Hb.
  eapply returns_impl; [apply (fill2_cr M N l f g 0 M 0 N body); try lia; [exact Hl|]|].
  - intros i j l' Hi Hj Hl'; apply Hb; [lia|lia|]. eapply repM_ext; [exact Hl'|].
    intros r c Hr Hc; cbv beta. destruct (Nat.ltb_spec r M); [|lia]. cbn [Nat.leb andb]. rewrite andb_true_r; reflexivity.
  - intros x Hx. eapply repM_ext; [exact Hx|]. intros r c Hr Hc; cbv beta.
    destruct (Nat.ltb_spec r M), (Nat.ltb_spec c N); cbn; auto; lia.
Qed.

(** Block copies. *)
Lemma copy_n_spec n (src : list T) so (dst : list T) d (fs fd : nat -> T) ns nd :
  repV ns src fs -> repV nd dst fd -> so + n <= ns -> d + n <= nd ->
  returns (copy_n n src so dst d)
    (fun r => repV nd r
       (fun k => if (d <=? k) && (k <? d + n) then fs (so + (k - d)) else fd k)).
Proof.
  intros Hs Hd H1 H2. unfold copy_n.
  eapply returns_impl; [apply (for_inv (fun i r => repV nd r
     (fun k => if (d <=? k) && (k <? d + i) then fs (so + (k - d)) else fd k))); [lia| |]|auto].
  - eapply repV_ext; [exact Hd|]. intros k Hk; cbv beta.
    destruct (Nat.leb_spec d k), (Nat.ltb_spec k (d + 0)); cbn; auto; lia.
  - intros i r Hi Hr. rewrite (repV_rd ns src fs) by (auto; lia). cbn [bind].
    destruct (repV_wr nd r _ (d + i) (fs (so + i)) Hr ltac:(lia)) as [E HR]; rewrite E.
    apply returns_ok. eapply repV_ext; [exact HR|]. intros k Hk; cbv beta.
    destruct (Nat.eqb_spec k (d + i)) as [->|Hne].
    + replace (d + i - d) with i by lia.
      destruct (Nat.leb_spec d (d + i)), (Nat.ltb_spec (d + i) (d + S i)); cbn; auto; lia.
    + destruct (Nat.leb_spec d k), (Nat.ltb_spec k (d + i)), (Nat.ltb_spec k (d + S i));
        cbn; auto; lia.
Qed.
End Arrays.

Section Sums.
Context {T : Type} `{Scalar T}.

Lemma ssum_ext n f g : (forall i, i < n -> f i = g i) -> ssum n f = ssum n g.
Proof.
  induction n as [|n IH]; intros E; cbn [ssum]; auto.
  rewrite IH, E by (auto; intros; apply E; lia). reflexivity.
Qed.

(** A loop accumulating [acc += f i]. *)
Lemma for_sum n f (body : nat -> T -> res T) :
  (forall i a, i < n -> body i a = Ok (sadd a (f i))) ->
  for_ 0 n body szero = Ok (ssum n f).
Proof.
  intros Hb.
  destruct (for_inv (fun i a => a = ssum i f) 0 n body szero) as (a & E & ->); auto; try lia.
  intros k x Hk ->. rewrite Hb by lia. apply returns_ok; reflexivity.
Qed.
End Sums.

(** Partial correctness: what holds if the loop returns. *)
Lemma for_n_ok_inv {S : Type} (Inv : nat -> S -> Prop) (body : nat -> S -> res S) :
  forall n i s s',
  for_n n i body s = Ok s' -> Inv i s ->
  (forall k x x', i <= k < i + n -> Inv k x -> body k x = Ok x' -> Inv (Datatypes.S k) x') ->
  Inv (i + n) s'.
Proof.
  induction n as [|n IH]; intros i s s' E H0 Hb; cbn [for_n] in E.
  - injection E as <-. rewrite Nat.add_0_r; exact H0.
  - apply bind_ok_inv in E as (s1 & E1 & E2).
    replace (i + Datatypes.S n) with (Datatypes.S i + n) by lia.
    eapply IH; [exact E2| |].
    + eapply Hb; [lia|exact H0|exact E1].
    + intros k x x' Hk; apply Hb; lia.
Qed.

Lemma for_ok_inv {S : Type} (Inv : nat -> S -> Prop) (body : nat -> S -> res S) lo hi s s' :
  lo <= hi -> for_ lo hi body s = Ok s' -> Inv lo s ->
  (forall k x x', lo <= k < hi -> Inv k x -> body k x = Ok x' -> Inv (Datatypes.S k) x') ->
  Inv hi s'.
Proof.
  intros Hle E H0 Hb. unfold for_ in E.
  replace hi with (lo + (hi - lo)) by lia.
  eapply for_n_ok_inv; [exact E|exact H0|]. intros k x x' Hk; apply Hb; lia.
Qed.
