(** Properties C113 and C114: with the checks switched on every index is either
    in range or rejected by an exception; what a rejected call leaves behind. *)
From Verif Require Import LBase MVector LVector MMatrix LMatrix MIndex Spec9 PSafe.
From Verif Require Import InstR.
Local Open Scope nat_scope.
Local Open Scope list_scope.

Section Index.
Context {cfg : Cfg} {T : Type} {ST : Scalar T}.

(** C113 (vectors and matrices, element, row and column access). *)
Theorem C113_checked_indices :
  safe = true ->
  (forall (M : nat) (v : list T) (i : nat), length v = M -> guarded (i < M) (vat M v i) (fun _ => True)) /\
  (forall (M : nat) (v : list T) (i : nat) (x : T), length v = M -> guarded (i < M) (vset M v i x) (fun r => length r = M)) /\
  (forall (M N : nat) (m : list T) (r c : nat), length m = M * N -> guarded (r < M /\ c < N) (mat_at M N m r c) (fun _ => True)) /\
  (forall (M N : nat) (m : list T) (r c : nat) (x : T), length m = M * N ->
     guarded (r < M /\ c < N) (mat_put M N m r c x) (fun r => length r = M * N)) /\
  (forall (M N : nat) (m v : list T) (c : nat), length m = M * N -> length v = M ->
     guarded (c < N) (mat_get_column M N m c) (fun r => length r = M) /\
     guarded (c < N) (mat_get_column_into M N m c v) (fun r => length r = M) /\
     guarded (c < N) (mat_set_column M N m c v) (fun r => length r = M * N)) /\
  (forall (M N : nat) (m v : list T) (r : nat), length m = M * N -> length v = N ->
     guarded (r < M) (mat_get_row M N m r) (fun r => length r = N) /\
     guarded (r < M) (mat_get_row_into M N m r v) (fun r => length r = N) /\
     guarded (r < M) (mat_set_row M N m r v) (fun r => length r = M * N)) /\
  (forall (M N : nat) (m data : list T), length m = M * N ->
     guarded (M * N <= length data) (mat_assign_vector M N m data) (fun r => length r = M * N)).
Proof.
  intros HS.
  assert (B : forall (a b : nat) X (y : res X), ~ (b < a) -> (if (a <=? b) && safe then Throw else y) = Throw).
  { intros a b X y H. rewrite HS. destruct (Nat.leb_spec a b); [reflexivity|lia]. }
  assert (B2 : forall (a b c d : nat) X (y : res X), ~ (b < a /\ d < c) -> (if ((a <=? b) || (c <=? d)) && safe then Throw else y) = Throw).
  { intros a b c d X y H. rewrite HS. destruct (Nat.leb_spec a b), (Nat.leb_spec c d); try reflexivity; lia. }
  repeat split; intros;
    repeat match goal with H : _ /\ _ |- _ => destruct H end.
  - apply sf_vat; [assumption|lia].
  - apply B. assumption.
  - apply sf_vset; [assumption|lia].
  - apply B. assumption.
  - apply sf_mat_at; assumption.
  - apply B2. assumption.
  - apply sf_mat_put; assumption.
  - apply B2. assumption.
  - apply sf_mat_get_column; assumption.
  - apply B. assumption.
  - apply sf_mat_get_column_into; assumption.
  - apply B. assumption.
  - apply sf_mat_set_column; assumption.
  - apply B. assumption.
  - apply sf_mat_get_row; assumption.
  - apply B. assumption.
  - apply sf_mat_get_row_into; assumption.
  - apply B. assumption.
  - apply sf_mat_set_row; assumption.
  - apply B. assumption.
  - apply sf_mat_assign_vector; assumption.
  - unfold mat_assign_vector. destruct (Nat.ltb_spec (length data) (M * N)); [reflexivity|lia].
Qed.

Lemma zadd_small W a b : a + b < W -> zadd W a b = a + b.
Proof. intros H. apply Nat.mod_small. exact H. Qed.

Lemma for_throw0 {S} n (body : nat -> S -> res S) s : 0 < n -> body 0 s = Throw -> for_ 0 n body s = Throw.
Proof. intros H E. rewrite for_step by lia. rewrite E. reflexivity. Qed.
Lemma for_throw_at {S} (Inv : S -> Prop) k : forall lo hi (body : nat -> S -> res S) s,
  lo <= k < hi -> Inv s -> (forall i x, lo <= i < k -> Inv x -> returns (body i x) Inv) ->
  (forall x, Inv x -> body k x = Throw) -> for_ lo hi body s = Throw.
Proof.
  intros lo hi body s Hk H0 Hb HT. remember (k - lo) as d eqn:Ed. revert lo s Hk H0 Hb Ed. induction d as [|d IH]; intros lo s Hk H0 Hb Ed.
  - assert (lo = k) by lia. subst. rewrite for_step by lia. rewrite HT by exact H0. reflexivity.
  - rewrite for_step by lia. destruct (Hb lo s ltac:(lia) H0) as (x & Ex & Hx). rewrite Ex. cbn [bind].
    apply IH; [lia|exact Hx| |lia]. intros i y Hi Hy. apply Hb; [lia|exact Hy].
Qed.
Lemma forr_step {S A} lo hi (body : nat -> S -> res (S + A)) s : lo < hi ->
  forr lo hi body s = (x <- body lo s ;; match x with inl s' => forr (Datatypes.S lo) hi body s' | inr a => Ok (inr a) end).
Proof. intros H. unfold forr. replace (hi - lo) with (Datatypes.S (hi - Datatypes.S lo)) by lia. reflexivity. Qed.
(** A loop that runs to its end, and one that is left in iteration [k]. *)
Lemma forr_full {S A} (Inv : nat -> S -> Prop) lo hi (body : nat -> S -> res (S + A)) s :
  lo <= hi -> Inv lo s -> (forall i x, lo <= i < hi -> Inv i x -> exists y, body i x = Ok (inl y) /\ Inv (Datatypes.S i) y) ->
  exists y, forr lo hi body s = Ok (inl y) /\ Inv hi y.
Proof.
  intros HL H0 Hb. remember (hi - lo) as d eqn:Ed. revert lo s HL H0 Hb Ed. induction d as [|d IH]; intros lo s HL H0 Hb Ed.
  - assert (lo = hi) by lia. subst. exists s. unfold forr. rewrite Nat.sub_diag. split; [reflexivity|exact H0].
  - rewrite forr_step by lia. destruct (Hb lo s ltac:(lia) H0) as (x & Ex & Hx). rewrite Ex. cbn [bind].
    apply IH; [lia|exact Hx| |lia]. intros i y Hi Hy. apply Hb; [lia|exact Hy].
Qed.
Lemma forr_left {S A} (Inv : nat -> S -> Prop) (Fin : A -> Prop) k lo hi (body : nat -> S -> res (S + A)) s :
  lo <= k < hi -> Inv lo s -> (forall i x, lo <= i < k -> Inv i x -> exists y, body i x = Ok (inl y) /\ Inv (Datatypes.S i) y) ->
  (forall x, Inv k x -> exists a, body k x = Ok (inr a) /\ Fin a) ->
  exists a, forr lo hi body s = Ok (inr a) /\ Fin a.
Proof.
  intros HL H0 Hb HT. remember (k - lo) as d eqn:Ed. revert lo s HL H0 Hb Ed. induction d as [|d IH]; intros lo s HL H0 Hb Ed.
  - assert (lo = k) by lia. subst. rewrite forr_step by lia. destruct (HT s H0) as (a & Ea & Ha). rewrite Ea. exists a. split; [reflexivity|exact Ha].
  - rewrite forr_step by lia. destruct (Hb lo s ltac:(lia) H0) as (x & Ex & Hx). rewrite Ex. cbn [bind].
    apply IH; [lia|exact Hx| |lia]. intros i y Hi Hy. apply Hb; [lia|exact Hy].
Qed.

(** C113 (sub-matrices): an offset that does not fit is rejected even when the
    sums offset + size wrap around in size_t; and where it fits, the wrapping
    code is the code of C06. *)
Theorem C113_checked_get_sub_matrix : forall (W M N O P : nat) (m result : list T) (ro co : nat),
  safe = true -> length m = M * N -> length result = O * P ->
  0 < O <= M -> 0 < P <= N -> 2 * M < W -> 2 * N < W -> ro < W -> co < W ->
  guarded (ro + O <= M /\ co + P <= N) (mat_get_sub_w W M N O P m result ro co) (fun r => length r = O * P) /\
  (ro + O <= M /\ co + P <= N -> mat_get_sub_w W M N O P m result ro co = mat_get_sub M N O P m result ro co).
Proof.
  intros W M N O P m result ro co HS Hm Hr HO HP HM HN Hro Hco.
  assert (E : ro + O <= M /\ co + P <= N -> mat_get_sub_w W M N O P m result ro co = mat_get_sub M N O P m result ro co).
  { intros [H1 H2]. unfold mat_get_sub_w, mat_get_sub. rewrite !zadd_small by lia. destruct (((M <? O + ro) || (N <? P + co)) && safe); [reflexivity|].
    unfold mat_fill_rc. apply for_ext. intros r x Hx. apply for_ext. intros c y Hy. rewrite !zadd_small by lia. reflexivity. }
  split; [split|exact E].
  - intros H. rewrite (E H). apply sf_mat_get_sub; lia.
  - intros H. unfold mat_get_sub_w. rewrite HS. destruct ((M <? zadd W O ro) || (N <? zadd W P co)) eqn:G; [reflexivity|]. cbn [andb].
    apply orb_false_iff in G. destruct G as [G1 G2]. apply Nat.ltb_ge in G1, G2.
    assert (A : M <= ro \/ N <= co).
    { destruct (le_lt_dec M ro) as [L|L]; [left; exact L|]. destruct (le_lt_dec N co) as [L'|L']; [right; exact L'|].
      rewrite zadd_small in G1, G2 by lia. lia. }
    unfold mat_fill_rc. apply for_throw0; [lia|]. apply for_throw0; [lia|].
    assert (Z : mat_at M N m (zadd W ro 0) (zadd W co 0) = Throw).
    { rewrite !zadd_small by lia. rewrite !Nat.add_0_r. unfold mat_at. rewrite HS.
      destruct (Nat.leb_spec M ro), (Nat.leb_spec N co); try reflexivity; lia. }
    rewrite Z. reflexivity.
Qed.

(** C114: set_sub_matrix() at an offset that does not fit throws in the middle:
    the cells before the first bad one (in row order) are already overwritten. *)
Theorem C114_set_sub_matrix_partial :
  forall (W M N O P : nat) (m sub : list T) (f g : nat -> nat -> T) (ro co : nat),
  safe = true -> repM M N m f -> repM O P sub g ->
  0 < O <= M -> 0 < P <= N -> 2 * M < W -> 2 * N < W -> ro < W -> co < W ->
  exists m',
    mat_set_sub_w W M N O P m sub ro co = Ok (m', (M <? ro + O) || (N <? co + P)) /\
    repM M N m' (fun i j =>
      if (ro <=? i) && (i <? ro + (if N <? co + P then 1 else O)) && (co <=? j) && (j <? co + P)
      then g (i - ro) (j - co) else f i j).
Proof.
  intros W M N O P m sub f g ro co HS Hm Hg HO HP HM HN Hro Hco.
  set (wrt := fun (r c i j : nat) => (ro <=? i) && (i <? ro + O) && (co <=? j) && (j <? co + P) && ((i <? ro + r) || ((i =? ro + r) && (j <? co + c)))).
  set (cells := fun r c i j => if wrt r c i j then g (i - ro) (j - co) else f i j).
  set (body := fun (r c : nat) (m : list T) =>
           x <- mat_at O P sub r c ;;
           match mat_put M N m (zadd W ro r) (zadd W co c) x with
           | Ok m' => Ok (inl m') | Throw => Ok (inr m) | UB => UB | NonFin => NonFin end : res (list T + list T)).
  assert (Wg : forall r c, r < O -> c < P -> ro + r < M -> co + c < N -> forall x, repM M N x (cells r c) ->
     exists y, body r c x = Ok (inl y) /\ repM M N y (cells r (Datatypes.S c))).
  { intros r c Hr Hc H1 H2 x Hx. unfold body. rewrite (mat_at_ok O P sub g r c Hg Hr Hc). cbn [bind]. rewrite !zadd_small by lia.
    destruct (mat_put_rep M N x _ (ro + r) (co + c) (g r c) Hx H1 H2) as (y & Ey & Hy). rewrite Ey. exists y. split; [reflexivity|].
    eapply repM_ext; [exact Hy|]. intros i j Hi Hj. unfold cells, wrt.
    destruct (Nat.eqb_spec i (ro + r)), (Nat.eqb_spec j (co + c)); cbn [andb].
    - subst. replace (ro + r - ro) with r by lia. replace (co + c - co) with c by lia.
      destruct (Nat.leb_spec ro (ro + r)), (Nat.ltb_spec (ro + r) (ro + O)), (Nat.leb_spec co (co + c)), (Nat.ltb_spec (co + c) (co + P)),
        (Nat.ltb_spec (co + c) (co + Datatypes.S c)); try lia. cbn. rewrite orb_true_r. reflexivity.
    - destruct (Nat.ltb_spec j (co + c)), (Nat.ltb_spec j (co + Datatypes.S c)); try lia; reflexivity.
    - reflexivity.
    - reflexivity. }
  assert (Th : forall r c, r < O -> c < P -> ro + r < W -> co + c < W -> M <= ro + r \/ N <= co + c -> forall x, body r c x = Ok (inr x)).
  { intros r c Hr Hc H1 H2 HB x. unfold body. rewrite (mat_at_ok O P sub g r c Hg Hr Hc). cbn [bind]. rewrite !zadd_small by lia.
    destruct (mat_throw M N x (ro + r) (co + c) (g r c) HB HS) as [_ E]. rewrite E. reflexivity. }
  assert (C0 : repM M N m (cells 0 0)).
  { eapply repM_ext; [exact Hm|]. intros i j Hi Hj. unfold cells, wrt.
    destruct (Nat.leb_spec ro i), (Nat.ltb_spec i (ro + O)), (Nat.leb_spec co j), (Nat.ltb_spec j (co + P)), (Nat.ltb_spec i (ro + 0)), (Nat.eqb_spec i (ro + 0)), (Nat.ltb_spec j (co + 0)); try lia; reflexivity. }
  assert (Cn : forall r x, repM M N x (cells r P) -> repM M N x (cells (Datatypes.S r) 0)).
  { intros r x Hx. eapply repM_ext; [exact Hx|]. intros i j Hi Hj. unfold cells, wrt.
    destruct (Nat.leb_spec ro i), (Nat.ltb_spec i (ro + O)), (Nat.leb_spec co j), (Nat.ltb_spec j (co + P)); cbn [andb]; try reflexivity.
    destruct (Nat.ltb_spec i (ro + r)), (Nat.eqb_spec i (ro + r)), (Nat.ltb_spec i (ro + Datatypes.S r)), (Nat.eqb_spec i (ro + Datatypes.S r)), (Nat.ltb_spec j (co + 0)); try lia; reflexivity. }
  assert (L : forall r c x, repM M N x (cells r c) -> (forall i j, i < M -> j < N -> cells r c i j =
      if (ro <=? i) && (i <? ro + (if N <? co + P then 1 else O)) && (co <=? j) && (j <? co + P) then g (i - ro) (j - co) else f i j) ->
     repM M N x (fun i j => if (ro <=? i) && (i <? ro + (if N <? co + P then 1 else O)) && (co <=? j) && (j <? co + P)
      then g (i - ro) (j - co) else f i j)).
  { intros r c x Hx H. eapply repM_ext; [exact Hx|exact H]. }
  change (mat_set_sub_w W M N O P m sub ro co) with
    (s <- forr 0 O (fun r m => forr 0 P (fun c m => body r c m) m) m ;; Ok (match s with inl m' => (m', false) | inr m' => (m', true) end)).
  destruct (le_lt_dec (co + P) N) as [HC|HC].
  - (* the columns fit *)
    assert (Row : forall r x, r < O -> ro + r < M -> repM M N x (cells r 0) ->
      exists y, forr 0 P (fun c m => body r c m) x = Ok (inl y) /\ repM M N y (cells (Datatypes.S r) 0)).
    { intros r x Hr H1 Hx.
      destruct (forr_full (A := list T) (fun c x => repM M N x (cells r c)) 0 P (fun c m => body r c m) x ltac:(lia) Hx) as (y & Ey & Hy).
      - intros c z Hc Hz. apply Wg; try assumption; lia.
      - exists y. split; [exact Ey|apply Cn; exact Hy]. }
    destruct (Nat.ltb_spec N (co + P)); [lia|]. rewrite orb_false_r.
    destruct (le_lt_dec (ro + O) M) as [HR|HR].
    + destruct (forr_full (A := list T) (fun r x => repM M N x (cells r 0)) 0 O (fun r m => forr 0 P (fun c m => body r c m) m) m ltac:(lia) C0) as (y & Ey & Hy).
      { intros r x Hr Hx. apply Row; try assumption; lia. }
      rewrite Ey. exists y. split; [destruct (Nat.ltb_spec M (ro + O)); [lia|reflexivity]|].
      eapply repM_ext; [exact Hy|]. intros i j Hi Hj. unfold cells, wrt.
      destruct (Nat.leb_spec ro i), (Nat.ltb_spec i (ro + O)), (Nat.leb_spec co j), (Nat.ltb_spec j (co + P)); reflexivity.
    + destruct (forr_left (A := list T) (fun r x => repM M N x (cells r 0)) (fun x => repM M N x (cells (M - ro) 0)) (M - ro) 0 O (fun r m => forr 0 P (fun c m => body r c m) m) m ltac:(lia) C0) as (y & Ey & Hy).
      { intros r x Hr Hx. apply Row; try assumption; lia. }
      { intros x Hx. exists x. split; [|exact Hx]. rewrite forr_step by lia. rewrite Th by lia. reflexivity. }
      rewrite Ey. exists y. split; [destruct (Nat.ltb_spec M (ro + O)); [reflexivity|lia]|].
      eapply repM_ext; [exact Hy|]. intros i j Hi Hj. unfold cells, wrt.
      destruct (Nat.leb_spec ro i), (Nat.ltb_spec i (ro + O)), (Nat.leb_spec co j), (Nat.ltb_spec j (co + P)); cbn [andb]; try reflexivity.
      destruct (Nat.ltb_spec i (ro + (M - ro))); [reflexivity|lia].
  - (* a column does not fit: the first row is left in its middle *)
    destruct (Nat.ltb_spec N (co + P)); [|lia]. rewrite orb_true_r.
    assert (R0 : exists y, forr 0 P (fun c m => body 0 c m) m = Ok (inr y) /\
       repM M N y (fun i j => if (ro <=? i) && (i <? ro + 1) && (co <=? j) && (j <? co + P) then g (i - ro) (j - co) else f i j)).
    { destruct (le_lt_dec M ro) as [L1|L1].
      - exists m. split; [rewrite forr_step by lia; rewrite Th by lia; reflexivity|].
        eapply repM_ext; [exact Hm|]. intros i j Hi Hj. destruct (Nat.leb_spec ro i); [lia|reflexivity].
      - destruct (forr_left (A := list T) (fun c x => repM M N x (cells 0 c)) (fun x => repM M N x (cells 0 (N - co))) (N - co) 0 P (fun c m => body 0 c m) m ltac:(lia) C0) as (y & Ey & Hy).
        { intros c z Hc Hz. apply Wg; try assumption; lia. }
        { intros x Hx. exists x. split; [|exact Hx]. apply Th; lia. }
        exists y. split; [exact Ey|]. eapply repM_ext; [exact Hy|]. intros i j Hi Hj. unfold cells, wrt.
        destruct (Nat.leb_spec ro i), (Nat.ltb_spec i (ro + O)), (Nat.ltb_spec i (ro + 1)), (Nat.leb_spec co j), (Nat.ltb_spec j (co + P)),
          (Nat.ltb_spec i (ro + 0)), (Nat.eqb_spec i (ro + 0)), (Nat.ltb_spec j (co + (N - co))); cbn [andb orb]; try reflexivity; lia. }
    destruct R0 as (y & Ey & Hy). exists y. split; [|exact Hy].
    rewrite forr_step by lia. cbv beta. rewrite Ey. reflexivity.
Qed.
End Index.

(** C114 refuted: the exception is thrown, and the matrix is not what it was. *)
Theorem C114_throwing_set_sub_matrix_refuted :
  exists (m m' sub : list nat), length m = 9 /\ length sub = 4 /\ m' <> m /\
  forall (cfg : Cfg) (ST : Scalar nat), safe = true ->
  mat_set_sub (T := nat) 3 3 2 2 m sub 2 0 = Throw /\
  mat_set_sub_w (2 ^ 6) 3 3 2 2 m sub 2 0 = Ok (m', true).
Proof.
  exists [1; 2; 3; 4; 5; 6; 7; 8; 9], [1; 2; 10; 4; 5; 30; 7; 8; 9], [10; 20; 30; 40].
  split; [reflexivity|]. split; [reflexivity|]. split; [discriminate|]. intros [s] ST H. cbn in H. subst s. split; reflexivity.
Qed.
Example C114_hypotheses_met :
  exists f g, repM 3 3 [1; 2; 3; 4; 5; 6; 7; 8; 9] f /\ repM 2 2 [10; 20; 30; 40] g /\ safe (Cfg := {| safe := true |}) = true.
Proof.
  eexists _, _. split; [apply (repM_nth 3 3 _ 0); reflexivity|]. split; [apply (repM_nth 2 2 _ 0); reflexivity|reflexivity].
Qed.
(** C113's hypotheses: a 3x3 matrix, an offset of W - 1 (so that the sum with
    the size wraps around to 1). *)
Example C113_hypotheses_met :
  forall ST : Scalar nat,
  mat_get_sub_w (cfg := {| safe := true |}) 64 3 3 2 2 [1; 2; 3; 4; 5; 6; 7; 8; 9] [0; 0; 0; 0] 63 0 = Throw /\
  zadd 64 2 63 = 1 /\
  mat_get_sub_w (cfg := {| safe := true |}) 64 3 3 2 2 [1; 2; 3; 4; 5; 6; 7; 8; 9] [0; 0; 0; 0] 1 1 = Ok [5; 6; 8; 9].
Proof. intros ST. repeat split. Qed.
Print Assumptions C113_checked_indices.
Print Assumptions C113_checked_get_sub_matrix.
Print Assumptions C114_set_sub_matrix_partial.
Print Assumptions C114_throwing_set_sub_matrix_refuted.
