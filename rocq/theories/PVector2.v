(** Properties C46-C56: searches, clamp, homogeneous coordinates, constructors,
    planes, spheres, component predicates, random fills. *)
From Verif Require Import LVecProps2.

(** C46.  Indices of minimum/maximum, for every element type whose < is a strict
    weak order on the components: the index is in range, no component is smaller
    (larger), and every earlier component is strictly larger (smaller), i.e. it
    is the first such index; find_min/find_max return that component. *)
Theorem C46_find_min_max :
  forall (cfg : Cfg) (T : Type) (ST : Scalar T) (good : T -> Prop) (M : nat) (v : list T) (f : nat -> T),
  strict_weak good sltb -> 0 < M -> repV M v f -> (forall i, i < M -> good (f i)) ->
  (exists k, vec_find_min_index v = Ok k /\ vec_find_min v = Ok (f k) /\ k < M /\
     (forall j, j < M -> sltb (f j) (f k) = false) /\ (forall j, j < k -> sltb (f k) (f j) = true)) /\
  (exists k, vec_find_max_index v = Ok k /\ vec_find_max v = Ok (f k) /\ k < M /\
     (forall j, j < M -> sltb (f k) (f j) = false) /\ (forall j, j < k -> sltb (f j) (f k) = true)).
Proof.
  intros cfg T ST good M v f W HM Hv G. split.
  - destruct (min_element_spec good sltb M v f W HM Hv G) as (k & E & Hk & H1 & H2).
    exists k. split; [exact E|]. split; [|auto]. unfold vec_find_min, vec_find_min_index. rewrite E. cbn [bind].
    apply (repV_rd M); auto.
  - destruct (max_element_spec good sltb M v f W HM Hv G) as (k & E & Hk & H1 & H2).
    exists k. split; [exact E|]. split; [|auto]. unfold vec_find_max, vec_find_max_index. rewrite E. cbn [bind].
    apply (repV_rd M); auto.
Qed.
Print Assumptions C46_find_min_max.

(** C46 over the reals, including find_abs_min_index. *)
Theorem C46_find_min_max_real :
  forall (cfg : Cfg) (lim : RLim) (M : nat) (v : list R) (f : nat -> R),
  0 < M -> repV M v f ->
  (exists k, vec_find_min_index v = Ok k /\ vec_find_min v = Ok (f k) /\ k < M /\
     (forall j, j < M -> (f k <= f j)%R) /\ (forall j, j < k -> (f k < f j)%R)) /\
  (exists k, vec_find_max_index v = Ok k /\ vec_find_max v = Ok (f k) /\ k < M /\
     (forall j, j < M -> (f j <= f k)%R) /\ (forall j, j < k -> (f j < f k)%R)) /\
  (exists k, vec_find_abs_min_index v = Ok k /\ k < M /\
     (forall j, j < M -> (Rabs (f k) <= Rabs (f j))%R) /\ (forall j, j < k -> (Rabs (f k) < Rabs (f j))%R)).
Proof.
  intros cfg lim M v f HM Hv.
  assert (LE : forall a b, Rltb a b = false -> (b <= a)%R).
  { intros a b. unfold Rltb. destruct (Rlt_dec a b); [discriminate|]. intros; lra. }
  destruct (C46_find_min_max cfg R RScalar (fun _ => True) M v f R_strict_weak HM Hv (fun _ _ => I))
    as [(k & E1 & E2 & Hk & H1 & H2) (k' & E1' & E2' & Hk' & H1' & H2')].
  split; [|split].
  - exists k. split; [exact E1|]. split; [exact E2|]. split; [exact Hk|].
    split; intros j Hj; [apply LE, H1, Hj|apply Rltb_iff, H2, Hj].
  - exists k'. split; [exact E1'|]. split; [exact E2'|]. split; [exact Hk'|].
    split; intros j Hj; [apply LE, H1', Hj|apply Rltb_iff, H2', Hj].
  - assert (W : strict_weak (fun _ : R => True) abs_less).
    { constructor.
      - intros a _. apply (sw_irrefl _ _ R_strict_weak (Rabs a) I).
      - intros a b c _ _ _. apply (sw_trans _ _ R_strict_weak (Rabs a) (Rabs b) (Rabs c) I I I).
      - intros a b c _ _ _. apply (sw_cotrans _ _ R_strict_weak (Rabs a) (Rabs b) (Rabs c) I I I). }
    destruct (min_element_spec (fun _ => True) abs_less M v f W HM Hv (fun _ _ => I)) as (j & E & Hj & K1 & K2).
    exists j. split; [exact E|]. split; [exact Hj|].
    split; intros i Hi; [apply LE, K1, Hi|apply Rltb_iff, K2, Hi].
Qed.
Print Assumptions C46_find_min_max_real.

Example C46_hypotheses_met : repV 3 [2; -7; 5]%R (fun i => nth i [2; -7; 5]%R 0%R) /\ 0 < 3.
Proof. split; [apply repV_nth; reflexivity|lia]. Qed.

(** C47 is false: find_abs_max_index always returns what find_abs_min_index
    returns, i.e. an index of a component of smallest absolute value. *)
Theorem C47_find_abs_max_refuted :
  (forall (T : Type) (ST : Scalar T) (v : list T),
     vec_find_abs_max_index v = vec_find_abs_min_index v) /\
  (let ST := ZScalar in vec_find_abs_max_index [3; -1; -9]%Z = Ok 1).
Proof. split; reflexivity. Qed.
Print Assumptions C47_find_abs_max_refuted.

(** C48.  clamp( lo, hi ). *)
Theorem C48_clamp :
  forall (cfg : Cfg) (lim : RLim) (M : nat) (v : list R) (f : nat -> R) (lo hi : R),
  repV M v f -> (lo <= hi)%R ->
  exists r g, vec_clamp M v lo hi = Ok r /\ repV M r g /\
  (forall i, i < M ->
     (lo <= g i <= hi)%R /\
     ((lo <= f i <= hi)%R -> g i = f i) /\
     ((f i < lo)%R -> g i = lo) /\ ((hi < f i)%R -> g i = hi)) /\
  vec_clamp M r lo hi = Ok r.
Proof.
  intros cfg lim M v f lo hi Hv Hle.
  destruct (vec_clamp_spec M v f lo hi Hv) as (r & E & Hr). cbn in Hr.
  set (g := fun i => if Rltb hi (if Rltb (f i) lo then lo else f i) then hi
                     else if Rltb (f i) lo then lo else f i) in *.
  assert (B : forall i, (lo <= g i <= hi)%R).
  { intros i. unfold g. destruct (Rltb_spec (f i) lo).
    - destruct (Rltb_spec hi lo); lra.
    - destruct (Rltb_spec hi (f i)); lra. }
  exists r, g. split; [exact E|]. split; [exact Hr|]. split.
  - intros i Hi. split; [apply B|]. unfold g.
    destruct (Rltb_spec (f i) lo).
    + destruct (Rltb_spec hi lo); repeat split; intros; lra.
    + destruct (Rltb_spec hi (f i)); repeat split; intros; lra.
  - destruct (vec_clamp_spec M r g lo hi Hr) as (r2 & E2 & Hr2). rewrite E2. f_equal.
    eapply repV_inj; [|exact Hr]. eapply repV_ext; [exact Hr2|]. intros i Hi. cbn.
    specialize (B i). destruct (Rltb_spec (g i) lo); [lra|]. destruct (Rltb_spec hi (g i)); [lra|reflexivity].
Qed.
Print Assumptions C48_clamp.

(** C48 for every element type, and without lo <= hi. *)
Theorem C48_clamp_general :
  forall (cfg : Cfg) (T : Type) (ST : Scalar T) (M : nat) (v : list T) (f : nat -> T) (lo hi : T),
  repV M v f ->
  returns (vec_clamp M v lo hi) (fun r => repV M r (fun i =>
    let x := if sltb (f i) lo then lo else f i in if sltb hi x then hi else x)).
Proof. intros; apply vec_clamp_spec; assumption. Qed.
Print Assumptions C48_clamp_general.

(** C49.  Homogeneous coordinates: appending 1, for every element type... *)
Theorem C49_to_homogeneous :
  forall (cfg : Cfg) (T : Type) (ST : Scalar T) (M : nat) (g src : list T) (f : nat -> T),
  length g = M + 1 -> repV M src f ->
  returns (vec_to_hom (M + 1) g src)
    (fun r => repV (M + 1) r (fun i => if i <? M then f i else sone)).
Proof.
  intros cfg T ST M g src f Hg Hs.
  exact (vec_to_hom_spec M g src _ f (repV_nth (M + 1) g szero Hg) Hs).
Qed.
Print Assumptions C49_to_homogeneous.

(** ...dividing by the last component; a zero last component gives non-finite
    results; the round trip is the identity and the scale does not matter. *)
Theorem C49_from_homogeneous :
  forall (cfg : Cfg) (lim : RLim) (M : nat) (g src : list R) (f : nat -> R),
  length g = M -> repV (M + 1) src f ->
  (f M = 0%R -> vec_from_hom M g src = NonFin) /\
  (f M <> 0%R ->
   exists r, vec_from_hom M g src = Ok r /\ repV M r (fun i => f i / f M)%R /\
   forall (k : R) (src' : list R), k <> 0%R -> repV (M + 1) src' (fun i => k * f i)%R ->
     vec_from_hom M g src' = Ok r) /\
  (forall (h p : list R), length h = M + 1 -> length p = M ->
   exists q, vec_to_hom (M + 1) h p = Ok q /\ vec_from_hom M g q = Ok p).
Proof.
  intros cfg lim M g src f Hg Hs.
  assert (K : forall s (fs : nat -> R), repV (M + 1) s fs -> fs M <> 0%R ->
     returns (vec_from_hom M g s) (fun r => repV M r (fun i => fs i / fs M)%R)).
  { intros s fs Hs' Hne. unfold vec_from_hom. rewrite (vat_ok (M + 1) s fs) by (auto; lia). cbn [bind].
    rewrite sdiv_R by exact Hne. cbn [bind].
    eapply fill1_all; [exact (repV_nth M g 0%R Hg)|]. intros i l Hi Hl; cbv beta.
    rewrite (vat_ok (M + 1) s fs) by (auto; lia). cbn [bind]. f_equal. cbn. field. exact Hne. }
  split; [|split].
  - intros H0. unfold vec_from_hom. rewrite (vat_ok (M + 1) src f) by (auto; lia). cbn [bind].
    cbn. rewrite Reqb_true by exact H0. reflexivity.
  - intros Hne. destruct (K src f Hs Hne) as (r & E & Hr). exists r. split; [exact E|]. split; [exact Hr|].
    intros k src' Hk Hs'.
    destruct (K src' _ Hs') as (r' & E' & Hr'); [apply Rmult_integral_contrapositive; auto|].
    rewrite E'. f_equal. eapply repV_inj; [exact Hr'|]. eapply repV_ext; [exact Hr|].
    intros i Hi; cbv beta. field. auto.
  - intros h p Hh Hp.
    pose proof (repV_nth M p 0%R Hp) as Hp'.
    destruct (vec_to_hom_spec M h p _ _ (repV_nth (M + 1) h 0%R Hh) Hp') as (q & Eq & Hq).
    exists q. split; [exact Eq|].
    destruct (K q _ Hq) as (r & E & Hr).
    + rewrite Nat.ltb_irrefl. cbn. lra.
    + rewrite E. f_equal. eapply repV_inj; [exact Hr|]. eapply repV_ext; [exact Hp'|].
      intros i Hi; cbv beta. rewrite Nat.ltb_irrefl. cbn [sone RScalar].
      destruct (Nat.ltb_spec i M); [field|lia].
Qed.
Print Assumptions C49_from_homogeneous.

(** C50.  Constructors, setters and assignments; [v] is the previous (for
    constructors: arbitrary uninitialised) contents. *)
Theorem C50_fill :
  forall (cfg : Cfg) (T : Type) (ST : Scalar T) (M : nat) (v : list T) (a : T),
  length v = M ->
  vec_ctor_fill M v a = Ok (repeat a M) /\ vec_set_fill M v a = Ok (repeat a M) /\
  vec_assign_fill M v a = Ok (repeat a M) /\ vec_zero M v = Ok (repeat szero M) /\
  vec_default M = repeat (szero : T) M.
Proof.
  intros cfg T ST M v a Hv. pose proof (repV_nth M v szero Hv) as H.
  assert (K : forall (m : res (list T)) x, returns m (fun r => repV M r (fun _ : nat => x)) -> m = Ok (repeat (x : T) M)).
  { intros m x (r & -> & Hr). f_equal. exact (repV_inj M r _ _ Hr (repV_repeat M x)). }
  repeat split; apply K; first [apply (fill_const M v _ _ H)|apply (vec_assign_fill_spec M v _ _ H)].
Qed.
Print Assumptions C50_fill.

Theorem C50_set_components :
  forall (cfg : Cfg) (T : Type) (ST : Scalar T) (M : nat) (v : list T) (f : nat -> T) (x y z w : T),
  repV M v f ->
  (2 <= M -> returns (vec_set2 v x y) (fun r => repV M r (fun i => match i with 0 => x | 1 => y | _ => f i end))) /\
  (3 <= M -> returns (vec_set3 v x y z)
     (fun r => repV M r (fun i => match i with 0 => x | 1 => y | 2 => z | _ => f i end))) /\
  (4 <= M -> returns (vec_set4 v x y z w)
     (fun r => repV M r (fun i => match i with 0 => x | 1 => y | 2 => z | 3 => w | _ => f i end))).
Proof.
  intros cfg T ST M v f x y z w Hv.
  assert (S : forall (l : list T) h i a, repV M l h -> i < M -> wr l i a = Ok (upd l i a) /\
     repV M (upd l i a) (fun k => if k =? i then a else h k)) by (intros; apply repV_wr; auto).
  split; [|split]; intros HM.
  - destruct (S v f 0 x Hv ltac:(lia)) as [E0 H0]. destruct (S _ _ 1 y H0 ltac:(lia)) as [E1 H1].
    unfold vec_set2. rewrite E0. cbn [bind]. rewrite E1. apply returns_ok.
    eapply repV_ext; [exact H1|]. intros [|[|i]] Hi; reflexivity.
  - destruct (S v f 0 x Hv ltac:(lia)) as [E0 H0]. destruct (S _ _ 1 y H0 ltac:(lia)) as [E1 H1].
    destruct (S _ _ 2 z H1 ltac:(lia)) as [E2 H2].
    unfold vec_set3. rewrite E0. cbn [bind]. rewrite E1. cbn [bind]. rewrite E2. apply returns_ok.
    eapply repV_ext; [exact H2|]. intros [|[|[|i]]] Hi; reflexivity.
  - destruct (S v f 0 x Hv ltac:(lia)) as [E0 H0]. destruct (S _ _ 1 y H0 ltac:(lia)) as [E1 H1].
    destruct (S _ _ 2 z H1 ltac:(lia)) as [E2 H2]. destruct (S _ _ 3 w H2 ltac:(lia)) as [E3 H3].
    unfold vec_set4. rewrite E0. cbn [bind]. rewrite E1. cbn [bind]. rewrite E2. cbn [bind]. rewrite E3.
    apply returns_ok. eapply repV_ext; [exact H3|]. intros [|[|[|[|i]]]] Hi; reflexivity.
Qed.
Print Assumptions C50_set_components.

(** Copies: from a C array, from a shorter vector plus one value, from a vector
    of another length (min(M,N) components), from a range, from a vector,
    element-wise casts. A C array that is too short is read past its end (UB). *)
Theorem C50_copies :
  forall (cfg : Cfg) (T : Type) (ST : Scalar T) (M N : nat) (v src : list T) (f fs : nat -> T) (a : T),
  repV M v f -> repV N src fs ->
  (M <= N -> returns (vec_ctor_ptr M v src) (fun r => repV M r fs) /\
             returns (vec_assign_ptr M v src) (fun r => repV M r fs)) /\
  (N < M -> vec_ctor_ptr M v src = UB /\ vec_assign_ptr M v src = UB) /\
  (N + 1 = M -> returns (vec_ctor_last M v src a) (fun r => repV M r (fun i => if i <? N then fs i else a)) /\
                returns (vec_set_last M v src a) (fun r => repV M r (fun i => if i <? N then fs i else a))) /\
  returns (vec_set_vec M N v src) (fun r => repV M r (fun i => if i <? N then fs i else f i)) /\
  returns (vec_iter_set M v src) (fun r => repV M r (fun i => if i <? N then fs i else f i)) /\
  (N = M -> vec_assign M v (Val src) = Ok src) /\
  vec_assign M v Self = Ok v /\
  (forall (U : Type) (cast : T -> U) (SU : Scalar U) (u : list U), N = M -> length u = M ->
     returns (vec_cast_from cast M u src) (fun r => repV M r (fun i => cast (fs i)))).
Proof.
  intros cfg T ST M N v src f fs a Hv Hs.
  assert (X : forall (r : list T), M <= N -> repV M r (fun k => if k <? M then fs k else f k) -> repV M r fs).
  { intros r _ Hr. eapply repV_ext; [exact Hr|]. intros i Hi; cbv beta. destruct (Nat.ltb_spec i M); auto; lia. }
  split; [|split; [|split; [|split; [|split; [|split; [|split]]]]]].
  - intros H. split.
    + eapply returns_impl; [apply (copy_prefix M src v fs f N M); auto|auto].
    + eapply returns_impl; [apply (copy_prefix_loop M src v fs f N M); auto|auto].
  - intros H. pose proof (repV_len _ _ _ Hv). pose proof (repV_len _ _ _ Hs).
    split; apply copy_short_ub; lia.
  - intros H. replace M with (N + 1) in * by lia. split.
    + unfold vec_ctor_last. replace (N + 1 - 1) with N by lia.
      eapply returns_bind; [apply (copy_prefix_loop N src v fs f N (N + 1)); auto; lia|].
      intros r Hr. destruct (repV_wr _ r _ N a Hr ltac:(lia)) as [E HR]. rewrite E. apply returns_ok.
      eapply repV_ext; [exact HR|]. intros k Hk; cbv beta. destruct (Nat.eqb_spec k N) as [->|Hne].
      * rewrite Nat.ltb_irrefl; reflexivity.
      * destruct (Nat.ltb_spec k N); auto; lia.
    + unfold vec_set_last. replace (N + 1 - 1) with N by lia.
      eapply returns_bind; [apply (copy_prefix N src v fs f N (N + 1)); auto; lia|].
      intros r Hr. rewrite vset_ok by lia.
      destruct (repV_wr _ r _ N a Hr ltac:(lia)) as [E HR]. rewrite E. apply returns_ok.
      eapply repV_ext; [exact HR|]. intros k Hk; cbv beta. destruct (Nat.eqb_spec k N) as [->|Hne].
      * rewrite Nat.ltb_irrefl; reflexivity.
      * destruct (Nat.ltb_spec k N); auto; lia.
  - unfold vec_set_vec. destruct (Nat.ltb_spec N M).
    + apply (copy_prefix N src v fs f N M); auto; lia.
    + eapply returns_impl; [apply (copy_prefix M src v fs f N M); auto; lia|].
      intros r Hr. eapply repV_ext; [exact Hr|]. intros i Hi; cbv beta.
      destruct (Nat.ltb_spec i M), (Nat.ltb_spec i N); auto; lia.
  - unfold vec_iter_set. rewrite (repV_len _ _ _ Hs).
    eapply returns_impl; [apply (copy_prefix_loop (Nat.min M N) src v fs f N M); auto; lia|].
    intros r Hr. eapply repV_ext; [exact Hr|]. intros i Hi; cbv beta.
    destruct (Nat.ltb_spec i (Nat.min M N)), (Nat.ltb_spec i N); auto; lia.
  - intros ->. cbn. destruct (copy_prefix M src v fs f M M Hs Hv ltac:(lia) ltac:(lia)) as (r & E & Hr).
    rewrite E. f_equal. eapply repV_inj; [apply X; [lia|exact Hr]|exact Hs].
  - reflexivity.
  - intros U cast SU u -> Hu. eapply vec_cast_spec; [exact (repV_nth M u szero Hu)|exact Hs|lia].
Qed.
Print Assumptions C50_copies.

(** at(): in range it reads and writes exactly that component; out of range it
    throws with safe accessors and is UB without. get_sub_vector is a window. *)
Theorem C50_access :
  forall (cfg : Cfg) (T : Type) (ST : Scalar T) (M : nat) (v : list T) (f : nat -> T) (i : nat) (x : T),
  repV M v f ->
  (i < M -> vat M v i = Ok (f i) /\
            returns (vset M v i x) (fun r => repV M r (fun k => if k =? i then x else f k))) /\
  (M <= i -> safe = true -> vat M v i = Throw /\ vset M v i x = Throw) /\
  (M <= i -> safe = false -> vat M v i = UB /\ vset M v i x = UB) /\
  (forall N off, off + N <= M ->
     returns (vec_sub_vector N v off) (fun r => repV N r (fun k => f (off + k))) /\
     (i < N -> returns (vec_sub_vector_set N v off i x)
                 (fun r => repV M r (fun k => if k =? off + i then x else f k)))).
Proof.
  intros cfg T ST M v f i x Hv. pose proof (repV_len _ _ _ Hv) as HL.
  split; [|split; [|split]].
  - intros Hi. split; [apply vat_ok; auto|]. rewrite vset_ok by auto.
    destruct (repV_wr M v f i x Hv Hi) as [E HR]. rewrite E. apply returns_ok; exact HR.
  - intros Hi Hs. split; [apply vat_throw|apply vset_throw]; auto.
  - intros Hi Hs. unfold vat, vset. rewrite Hs, andb_false_r. split; [apply rd_ub|apply wr_ub]; lia.
  - intros N off Ho. unfold vec_sub_vector, vec_sub_vector_set.
    destruct (Nat.leb_spec (off + N) (length v)); [|lia]. split.
    + apply returns_ok. split.
      * rewrite firstn_length, skipn_length. lia.
      * intros k Hk.
        assert (E : forall (l : list T) n j, j < n -> nth_error (firstn n l) j = nth_error l j).
        { induction l as [|a l IH]; intros [|n] [|j] Hj; cbn; auto; try lia. apply IH; lia. }
        assert (E2 : forall (l : list T) n j, nth_error (skipn n l) j = nth_error l (n + j)).
        { induction l as [|a l IH]; intros [|n] j; cbn; auto. destruct j; reflexivity. }
        rewrite E, E2 by exact Hk. apply Hv; lia.
    + intros Hi. destruct (Nat.leb_spec N i); [lia|]. cbn [andb].
      destruct (repV_wr M v f (off + i) x Hv ltac:(lia)) as [E HR]. rewrite E. apply returns_ok; exact HR.
Qed.
Print Assumptions C50_access.

Example C50_hypotheses_met : repV 4 [1; 2; 3; 4] (fun i => i + 1) /\ repV 3 [7; 8; 9] (fun i => i + 7).
Proof.
  split; (split; [reflexivity|]).
  - intros [|[|[|[|i]]]] Hi; try reflexivity; lia.
  - intros [|[|[|i]]] Hi; try reflexivity; lia.
Qed.

(** C51 is false: compute_plane normalises the 4-vector (n, 1) instead of the
    normal, so for every non-degenerate triangle the normal is shorter than 1. *)
Theorem C51_compute_plane_refuted :
  forall (cfg : Cfg) (lim : RLim) (a b c : V3),
  cross3 (sub3 b c) (sub3 a b) <> zero3 ->
  exists (x y z d : R), vec_compute_plane (v3 a) (v3 b) (v3 c) = Ok [x; y; z; d] /\
  (len3R (x, y, z) < 1)%R.
Proof.
  intros cfg lim a b c H. destruct (compute_plane_value cfg lim a b c) as (x & y & z & d & E & E2 & E3 & _).
  exists x, y, z, d. split; [exact E|]. rewrite E2. apply E3. 
Qed.
Print Assumptions C51_compute_plane_refuted.

(** C51, what holds: the plane passes through the three points and its normal is
    a positive multiple of the cross product (b-c)x(a-b) (zero when the points
    are collinear). *)
Theorem C51_compute_plane_partial :
  forall (cfg : Cfg) (lim : RLim) (a b c : V3),
  exists (n : V3) (d k : R),
  vec_compute_plane (v3 a) (v3 b) (v3 c) = Ok (v3 n ++ [d]) /\
  vec_dist_plane (v3 n ++ [d]) (v3 a) = Ok 0%R /\
  vec_dist_plane (v3 n ++ [d]) (v3 b) = Ok 0%R /\
  vec_dist_plane (v3 n ++ [d]) (v3 c) = Ok 0%R /\
  (0 < k)%R /\ n = scale3 k (cross3 (sub3 b c) (sub3 a b)).
Proof. exact compute_plane_partial. Qed.
Print Assumptions C51_compute_plane_partial.

(** C52.  Plane with unit normal: distance and projection. *)
Theorem C52_plane :
  forall (cfg : Cfg) (lim : RLim) (n : V3) (d : R) (p : V3),
  len3R n = 1%R ->
  exists (s : R) (q : V3),
  vec_dist_plane (v3 n ++ [d]) (v3 p) = Ok s /\
  vec_project_plane (v3 n ++ [d]) (v3 p) = Ok (v3 q) /\
  on_plane n d q /\
  p = add3 q (scale3 s n) /\                      (* signed distance along n *)
  dist3 p q = Rabs s /\
  (forall x, on_plane n d x -> (Rabs s <= dist3 p x)%R) /\
  (forall x, on_plane n d x -> dist3 p x = Rabs s -> x = q).
Proof. exact plane_correct. Qed.
Print Assumptions C52_plane.

Example C52_hypotheses_met : len3R (0, 0, 1)%R = 1%R.
Proof. apply len3_one_iff. cbn. lra. Qed.

(** C53.  Sphere: signed distance and projection. *)
Theorem C53_sphere :
  forall (cfg : Cfg) (lim : RLim) (c : V3) (r : R) (p : V3),
  vec_dist_sphere (v3 c ++ [r]) (v3 p) = Ok (dist3 p c - r)%R /\
  (p = c -> vec_project_sphere (v3 c ++ [r]) (v3 p) = Ok (v3 c)) /\
  (p <> c ->
   exists q k, vec_project_sphere (v3 c ++ [r]) (v3 p) = Ok (v3 q) /\
   dist3 q c = Rabs r /\
   sub3 q c = scale3 k (sub3 p c) /\ ((0 <= r)%R -> (0 <= k)%R) /\
   ((0 <= r)%R ->
      dist3 p q = Rabs (dist3 p c - r) /\
      forall x, dist3 x c = r -> (dist3 p q <= dist3 p x)%R)).
Proof. exact sphere_correct. Qed.
Print Assumptions C53_sphere.

(** C54.  is_unit_vector, product, util::min/max, manhattan. *)
Theorem C54_predicates :
  forall (cfg : Cfg) (lim : RLim) (M : nat) (v w : list R) (f g : nat -> R),
  repV M v f -> repV M w g ->
  (exists b, vec_is_unit_vector M v = Ok b /\
     (b = true <-> exists k, k < M /\ f k = 1%R /\ forall i, i < M -> i <> k -> f i = 0%R)) /\
  (0 < M -> vec_product M v = Ok (rprod M f)) /\
  returns (vec_min M v w) (fun r => repV M r (fun i => Rmin (f i) (g i))) /\
  returns (vec_max M v w) (fun r => repV M r (fun i => Rmax (f i) (g i))) /\
  vec_manhattan M v = Ok (rsum M (fun i => Rabs (f i))).
Proof.
  intros cfg lim M v w f g Hv Hw. split; [exact (is_unit_vector_R cfg M v f Hv)|]. split.
  { intros HM. rewrite (vec_product_spec M v f HM Hv), sprod_R by exact HM. reflexivity. }
  destruct (vec_minmax_spec M v w f g Hv Hw) as [H1 H2]. split; [|split].
  - eapply returns_impl; [exact H1|]. intros r Hr; eapply repV_ext; [exact Hr|]. intros i Hi; cbn.
    unfold Rmin. destruct (Rltb_spec (g i) (f i)), (Rle_dec (f i) (g i)); try reflexivity; lra.
  - eapply returns_impl; [exact H2|]. intros r Hr; eapply repV_ext; [exact Hr|]. intros i Hi; cbn.
    unfold Rmax. destruct (Rltb_spec (f i) (g i)), (Rle_dec (f i) (g i)); try reflexivity; lra.
  - rewrite (vec_manhattan_spec M v f Hv), ssum_R. reflexivity.
Qed.
Print Assumptions C54_predicates.

(** C54: manhattan is a norm. *)
Theorem C54_manhattan_norm :
  forall (cfg : Cfg) (lim : RLim) (M : nat) (u v : list R) (k : R),
  length u = M -> length v = M ->
  exists nu nv suv nsuv ku nku,
  vec_manhattan M u = Ok nu /\ vec_manhattan M v = Ok nv /\
  vec_add M u v = Ok suv /\ vec_manhattan M suv = Ok nsuv /\
  vec_mul_s M u k = Ok ku /\ vec_manhattan M ku = Ok nku /\
  (0 <= nu)%R /\ (nu = 0%R <-> forall x, In x u -> x = 0%R) /\ (nsuv <= nu + nv)%R /\ nku = (Rabs k * nu)%R.
Proof.
  intros cfg lim M u v k Lu Lv.
  pose proof (repV_nth M u 0%R Lu) as Hu. pose proof (repV_nth M v 0%R Lv) as Hv.
  set (fu := fun i => nth i u 0%R) in *. set (fv := fun i => nth i v 0%R) in *.
  destruct (vec_zip_spec M (fun a b => Ok (sadd a b)) u v fu fv (fun i => fu i + fv i)%R Hu Hv)
    as (suv & Es & Hs); [reflexivity|].
  destruct (vec_map_spec M (fun a => Ok (smul a k)) u fu (fun i => k * fu i)%R Hu) as (ku & Ek & Hk).
  { intros i Hi; cbn. rewrite Rmult_comm; reflexivity. }
  assert (MV : forall l f, repV M l f -> vec_manhattan M l = Ok (rsum M (fun i => Rabs (f i)))).
  { intros l f Hl. rewrite (vec_manhattan_spec M l f Hl), ssum_R. reflexivity. }
  do 6 eexists. split; [exact (MV u fu Hu)|]. split; [exact (MV v fv Hv)|]. split; [exact Es|].
  split; [exact (MV _ _ Hs)|]. split; [exact Ek|]. split; [exact (MV _ _ Hk)|].
  split; [apply rsum_nonneg; intros; apply Rabs_pos|]. split; [split; intros H|split].
  - intros x Hx. apply In_nth with (d := 0%R) in Hx as (i & Hi & <-).
    assert (E : Rabs (fu i) = 0%R).
    { apply (rsum_nonneg_zero M (fun i => Rabs (fu i))); auto; [intros; apply Rabs_pos|lia]. }
    unfold fu in E. destruct (Req_dec (nth i u 0%R) 0) as [|Hne]; auto.
    apply Rabs_no_R0 in Hne; contradiction.
  - apply rsum_zero'. intros i Hi. unfold fu. rewrite (H (nth i u 0%R)) by (apply nth_In; lia).
    apply Rabs_R0.
  - rewrite <- rsum_plus. apply rsum_le. intros; apply Rabs_triang.
  - rewrite <- rsum_scal. apply rsum_ext. intros; apply Rabs_mult.
Qed.
Print Assumptions C54_manhattan_norm.

(** C55.  reciprocal, reciprocal_safe, sqrt_elementwise. *)
Theorem C55_reciprocal_sqrt :
  forall (cfg : Cfg) (lim : RLim) (M : nat) (v : list R) (f : nat -> R),
  repV M v f ->
  ((forall i, i < M -> f i <> 0%R) ->
   exists r, vec_reciprocal M v = Ok r /\ repV M r (fun i => / f i)%R /\ vec_reciprocal M r = Ok v) /\
  ((exists i, i < M /\ f i = 0%R) -> forall r, vec_reciprocal M v <> Ok r) /\
  returns (vec_reciprocal_safe M v)
    (fun r => repV M r (fun i => if Req_EM_T (f i) 0 then rmax else (/ f i)%R)) /\
  ((forall i, i < M -> (0 <= f i)%R) ->
   returns (vec_sqrt M v) (fun r => repV M r (fun i => sqrt (f i)))).
Proof.
  intros cfg lim M v f Hv.
  assert (K : forall l g, repV M l g -> (forall i, i < M -> g i <> 0%R) ->
     returns (vec_reciprocal M l) (fun r => repV M r (fun i => / g i)%R)).
  { intros l g Hl Hg. apply (vec_map_inplace M (fun a => sdiv sone a) l g _ Hl).
    intros i Hi. rewrite sdiv_R by (apply Hg, Hi). cbn. f_equal. unfold Rdiv. ring. }
  split; [|split; [|split]].
  - intros Hne. destruct (K v f Hv Hne) as (r & E & Hr). exists r. split; [exact E|]. split; [exact Hr|].
    destruct (K r _ Hr) as (r2 & E2 & Hr2); [intros i Hi; apply Rinv_neq_0_compat, Hne, Hi|].
    rewrite E2. f_equal. eapply repV_inj; [|exact Hv]. eapply repV_ext; [exact Hr2|].
    intros i Hi; cbv beta. rewrite Rinv_inv; reflexivity.
  - intros (i0 & Hi0 & E0) r E. unfold vec_reciprocal in E.
    pose proof (for_ok_inv (fun k (l : list R) =>
        (length l = M /\ forall i, k <= i < M -> nth_error l i = Some (f i)) /\
        forall i, i < k -> f i <> 0%R) _ 0 M _ _ ltac:(lia) E) as H. cbv beta in H.
    destruct H as [_ H]; [| |exact (H i0 Hi0 E0)].
    + split; [split; [apply Hv|]|intros; lia]. intros i Hi; apply Hv; lia.
    + intros k x x' Hk [[Hx Hx2] IH] Eb.
      rewrite (rd_ok x k (f k)) in Eb by (apply Hx2; lia). cbn [bind] in Eb.
      apply bind_ok_inv in Eb as (y & Ey & Ew). rewrite wr_ok in Ew by lia. injection Ew as <-.
      split; [split; [rewrite length_upd; exact Hx|]|].
      * intros i Hi. rewrite nth_error_upd_other by lia. apply Hx2; lia.
      * intros i Hi. destruct (Nat.eq_dec i k) as [->|Hne]; [|apply IH; lia].
        cbn in Ey. destruct (Reqb_spec (f k) 0); [discriminate|assumption].
  - apply (vec_reciprocal_safe_spec M v f _ Hv). intros i Hi. cbn.
    destruct (Reqb_spec (f i) 0); destruct (Req_EM_T (f i) 0); try contradiction; auto.
    f_equal. unfold Rdiv. ring.
  - intros Hp. apply (vec_map_inplace M ssqrt v f _ Hv). intros i Hi. apply ssqrt_R, Hp, Hi.
Qed.
Print Assumptions C55_reciprocal_sqrt.

(** C56.  set_random: every component is written with a value in [-1,1], one
    rand() per component; the contents depend on the seed only; perturb moves
    every component by exactly +-p. *)
Theorem C56_set_random_perturb :
  forall (cfg : Cfg) (lim : RLim) (rnd : Z -> nat -> Z) (RAND_MAX : Z) (M : nat) (v v' : list R)
         (f : nat -> R) (seed : Z) (s s' : rng) (p : R),
  (0 < RAND_MAX)%Z -> (forall a k, (0 <= rnd a k <= RAND_MAX)%Z) ->
  repV M v f -> length v' = M ->
  (exists r g st, vec_set_random rnd RAND_MAX IZR M v seed s = Ok (r, st) /\ repV M r g /\
     (forall i, i < M -> (-1 <= g i <= 1)%R) /\
     ((0 <= seed)%Z -> st = (seed, M)) /\ ((seed < 0)%Z -> st = (fst s, snd s + M)) /\
     ((0 <= seed)%Z -> vec_set_random rnd RAND_MAX IZR M v' seed s' = Ok (r, st))) /\
  (exists r g st, vec_perturb rnd M v p s = Ok (r, st) /\ repV M r g /\ st = (fst s, snd s + M) /\
     forall i, i < M -> g i = (f i + p)%R \/ g i = (f i - p)%R).
Proof.
  intros cfg lim rnd RM M v v' f seed s s' p HR Hr Hv Hv'.
  assert (Hne : IZR RM <> 0%R) by (apply not_0_IZR; lia).
  split.
  - set (s0 := if (0 <=? seed)%Z then (seed, 0) else s).
    set (q := fun i : nat => (IZR (rnd (fst s0) (snd s0 + i)%nat) / IZR RM)%R).
    destruct (vec_set_random_spec rnd RM IZR M v f seed s q Hv) as ([r st] & E & Hrep & Hst).
    { intros i Hi. apply sdiv_R; exact Hne. }
    exists r, (fun i => -1 + 2 * q i)%R, st. split; [exact E|]. split; [exact Hrep|]. split; [|split; [|split]].
    + intros i Hi. unfold q. destruct (Hr (fst s0) (snd s0 + i)) as [A B].
      apply IZR_le in A, B. assert (0 < IZR RM)%R by (apply IZR_lt; exact HR).
      assert (0 <= IZR (rnd (fst s0) (snd s0 + i)%nat) / IZR RM <= 1)%R; [|lra].
      split.
      * apply Rmult_le_pos; [exact A|]. left; apply Rinv_0_lt_compat; assumption.
      * apply (Rmult_le_reg_r (IZR RM)); [assumption|]. unfold Rdiv. rewrite Rmult_assoc, Rinv_l by exact Hne. lra.
    + intros Hs. rewrite Hst. apply Z.leb_le in Hs. rewrite Hs. reflexivity.
    + intros Hs. rewrite Hst. apply Z.leb_gt in Hs. rewrite Hs. reflexivity.
    + intros Hs. apply Z.leb_le in Hs.
      destruct (vec_set_random_spec rnd RM IZR M v' _ seed s' q (repV_nth M v' 0%R Hv')) as ([r' st'] & E' & Hrep' & Hst').
      { intros i Hi. unfold q, s0. rewrite Hs. apply sdiv_R; exact Hne. }
      rewrite E'. rewrite Hs in Hst, Hst'. do 2 f_equal; [|congruence].
      exact (repV_inj M r' r _ Hrep' Hrep).
  - destruct (vec_perturb_spec rnd M v f p s Hv) as ([r st] & E & Hrep & Hst).
    exists r. eexists. exists st. split; [exact E|]. split; [exact Hrep|]. split; [exact Hst|].
    intros i Hi. cbn. destruct (Z.odd _); [left; reflexivity|right; lra].
Qed.
Print Assumptions C56_set_random_perturb.
