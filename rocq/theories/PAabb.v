(** Properties C64-C67: axis-aligned bounding boxes. *)
From Coq Require Export Permutation.
From Verif Require Export MAabb LVecProps LVectorR Spec3.
Local Open Scope nat_scope.

Lemma cons_eq' {A} (a b : A) l m : a = b -> l = m -> a :: l = b :: m.
Proof. congruence. Qed.
Ltac leq := repeat first [reflexivity | apply (f_equal Ok) | apply cons_eq'].

(** Points as triples, k-th coordinate, the array of a point. *)
Definition comp {T} (k : nat) (p : T * T * T) : T :=
  match k with 0 => fst (fst p) | 1 => snd (fst p) | _ => snd p end.
Definition l3 {T} (p : T * T * T) : list T := let '(x, y, z) := p in [x; y; z].

(** What can be merged into a box. *)
Inductive ev (T : Type) := EPoint (p : T * T * T) | EBox (lo hi : T * T * T).
Arguments EPoint {T} p.
Arguments EBox {T} lo hi.
Definition ev_lo {T} (e : ev T) := match e with EPoint p => p | EBox lo _ => lo end.
Definition ev_hi {T} (e : ev T) := match e with EPoint p => p | EBox _ hi => hi end.
Fixpoint merge_all {T} {ST : Scalar T} (h : list (ev T)) (b : box T) : res (box T) :=
  match h with
  | [] => Ok b
  | EPoint p :: h => b <- box_merge_point b (l3 p) ;; merge_all h b
  | EBox lo hi :: h => b <- box_merge b (l3 lo, l3 hi) ;; merge_all h b
  end.

(** smax and slow are the greatest and least of the values considered. *)
Record limits {T} {ST : Scalar T} {LO : Lowest T} (good : T -> Prop) : Prop := {
  lim_max : good smax;
  lim_low : good slow;
  lim_max_eq : forall x, good x -> sltb x smax = false -> sltb smax x = false -> x = smax;
  lim_low_eq : forall x, good x -> sltb x slow = false -> sltb slow x = false -> x = slow
}.
Definition between {T} {ST : Scalar T} {LO : Lowest T} (good : T -> Prop) (x : T) : Prop :=
  good x /\ sltb smax x = false /\ sltb x slow = false.

Section Fold.
Context {T : Type} (lt : T -> T -> bool) (good : T -> Prop) (W : strict_weak good lt).
Definition pick (a x : T) : T := if lt x a then x else a.
Lemma fold_pick l : forall e, good e -> (forall x, In x l -> good x) ->
  let r := fold_left pick l e in
  good r /\ (r = e \/ In r l) /\ lt e r = false /\ forall x, In x l -> lt x r = false.
Proof.
  induction l as [|y l IH]; intros e Ge Gl; cbn [fold_left].
  - split; [exact Ge|]. split; [auto|]. split; [apply (sw_irrefl _ _ W); exact Ge|intros x []].
  - assert (Gy : good y) by (apply Gl; left; reflexivity).
    assert (Gp : good (pick e y)) by (unfold pick; destruct (lt y e); assumption).
    destruct (IH (pick e y) Gp) as (Gr & Hin & Hle & Hall); [intros x Hx; apply Gl; right; exact Hx|].
    set (r := fold_left pick l (pick e y)) in *.
    assert (E : lt e r = false /\ lt y r = false).
    { unfold pick in Hle. destruct (lt y e) eqn:L.
      - split; [|exact Hle]. destruct (lt e r) eqn:F; [|reflexivity].
        rewrite (sw_trans _ _ W y e r) in Hle; auto.
      - split; [exact Hle|]. destruct (lt y r) eqn:F; [|reflexivity].
        destruct (sw_cotrans _ _ W y e r Gy Ge Gr F); congruence. }
    split; [exact Gr|]. split; [|split; [apply E|]].
    + destruct Hin as [Hin|Hin]; [|right; right; exact Hin]. unfold pick in Hin. destruct (lt y e); [right; left; auto|left; exact Hin].
    + intros x [<-|Hx]; [apply E|apply Hall; exact Hx].
Qed.
(** Starting from a greatest value, the result is one of the elements. *)
Lemma fold_pick_min l e : good e -> l <> [] -> (forall x, In x l -> good x /\ lt e x = false) ->
  (forall x, good x -> lt x e = false -> lt e x = false -> x = e) ->
  let r := fold_left pick l e in In r l /\ forall x, In x l -> lt x r = false.
Proof.
  intros Ge Hn Gl HE. destruct (fold_pick l e Ge (fun x Hx => proj1 (Gl x Hx))) as (Gr & Hin & Hle & Hall).
  cbv zeta. set (r := fold_left pick l e) in *. split; [|exact Hall].
  destruct Hin as [Hin|Hin]; [|exact Hin]. destruct l as [|x l]; [congruence|].
  assert (Hx : In x (x :: l)) by (left; reflexivity). destruct (Gl x Hx) as [Gx Lx].
  rewrite Hin in *. rewrite <- (HE x Gx (Hall x Hx) Lx). exact Hx.
Qed.
Lemma fold_pick_perm l l' e : (forall a b, good a -> good b -> lt a b = false -> lt b a = false -> a = b) ->
  good e -> (forall x, In x l -> good x) -> Permutation l l' -> fold_left pick l e = fold_left pick l' e.
Proof.
  intros TO Ge Gl HP. assert (Gl' : forall x, In x l' -> good x).
  { intros x Hx. apply Gl. eapply Permutation_in; [apply Permutation_sym; exact HP|exact Hx]. }
  destruct (fold_pick l e Ge Gl) as (G1 & I1 & L1 & A1). destruct (fold_pick l' e Ge Gl') as (G2 & I2 & L2 & A2).
  apply TO; auto.
  - destruct I1 as [->|I1]; [exact L2|]. apply A2. eapply Permutation_in; eassumption.
  - destruct I2 as [->|I2]; [exact L1|]. apply A1. eapply Permutation_in; [apply Permutation_sym; exact HP|exact I2].
Qed.
End Fold.

Section Merge.
Context {cfg : Cfg} {T : Type} {ST : Scalar T} {LO : Lowest T}.
Definition gtb (a b : T) : bool := sltb b a.
Definition pick3 (lt : T -> T -> bool) (a p : T * T * T) : T * T * T :=
  let '(x, y, z) := a in let '(x', y', z') := p in (pick lt x x', pick lt y y', pick lt z z').
Lemma keep_lt_l3 p a : (m <- keep_lt 0 (l3 p) (l3 a) ;; m <- keep_lt 1 (l3 p) m ;; keep_lt 2 (l3 p) m) = Ok (l3 (pick3 sltb a p)).
Proof.
  destruct p as [[x y] z], a as [[x' y'] z']. unfold keep_lt, pick3, pick. cbn.
  destruct (sltb x x'); cbn; destruct (sltb y y'); cbn; destruct (sltb z z'); reflexivity.
Qed.
Lemma keep_gt_l3 p a : (m <- keep_gt 0 (l3 p) (l3 a) ;; m <- keep_gt 1 (l3 p) m ;; keep_gt 2 (l3 p) m) = Ok (l3 (pick3 gtb a p)).
Proof.
  destruct p as [[x y] z], a as [[x' y'] z']. unfold keep_gt, pick3, pick, gtb. cbn.
  destruct (sltb x' x); cbn; destruct (sltb y' y); cbn; destruct (sltb z' z); reflexivity.
Qed.
Lemma bind3 {A} (m : list T) (k0 k1 k2 : list T -> res (list T)) (f : list T -> res A) :
  (m <- k0 m ;; m <- k1 m ;; m <- k2 m ;; f m) = (m <- (m <- k0 m ;; m <- k1 m ;; k2 m) ;; f m).
Proof. destruct (k0 m); cbn; auto. destruct (k1 a); cbn; auto. Qed.
Lemma box_merge_l3 lo hi lo' hi' :
  box_merge (l3 lo, l3 hi) (l3 lo', l3 hi') = Ok (l3 (pick3 sltb lo lo'), l3 (pick3 gtb hi hi')).
Proof.
  unfold box_merge. rewrite bind3, keep_lt_l3. cbn [bind]. rewrite bind3, keep_gt_l3. reflexivity.
Qed.
Lemma box_merge_point_l3 lo hi p :
  box_merge_point (l3 lo, l3 hi) (l3 p) = Ok (l3 (pick3 sltb lo p), l3 (pick3 gtb hi p)).
Proof. exact (box_merge_l3 lo hi p p). Qed.
Lemma merge_all_l3 h : forall lo hi, merge_all h (l3 lo, l3 hi) =
  Ok (l3 (fold_left (pick3 sltb) (map ev_lo h) lo), l3 (fold_left (pick3 gtb) (map ev_hi h) hi)).
Proof.
  induction h as [|[p|lo' hi'] h IH]; intros lo hi; cbn [merge_all map fold_left]; [reflexivity| |].
  - rewrite box_merge_point_l3. cbn [bind]. apply IH.
  - rewrite box_merge_l3. cbn [bind]. apply IH.
Qed.
Lemma comp_fold lt k l : forall a, comp k (fold_left (pick3 lt) l a) = fold_left (pick lt) (map (comp k) l) (comp k a).
Proof.
  induction l as [|p l IH]; intros a; [reflexivity|]. cbn [fold_left map]. rewrite IH. f_equal.
  destruct p as [[x y] z], a as [[x' y'] z']. destruct k as [|[|k]]; reflexivity.
Qed.
Lemma box_default_l3 : box_default = Ok (l3 (smax, smax, smax), l3 (slow, slow, slow)).
Proof. reflexivity. Qed.
Lemma box_isIn_l3 lo hi p : box_isIn (l3 lo, l3 hi) (l3 p) =
  Ok (if existsb (fun k => sltb (comp k hi) (comp k p) || sltb (comp k p) (comp k lo)) [0; 1; 2] then false else true).
Proof.
  destruct p as [[x y] z], lo as [[x' y'] z'], hi as [[x'' y''] z'']. cbn. do 2 f_equal.
  destruct (sltb x'' x), (sltb y'' y), (sltb z'' z), (sltb x x'), (sltb y y'), (sltb z z'); reflexivity.
Qed.
Lemma box_isIn_true lo hi p : box_isIn (l3 lo, l3 hi) (l3 p) = Ok true <->
  forall k, k < 3 -> sltb (comp k hi) (comp k p) = false /\ sltb (comp k p) (comp k lo) = false.
Proof.
  rewrite box_isIn_l3. cbn [existsb]. split.
  - intros [= H]. destruct (_ || _) eqn:E in H; [discriminate|]. rewrite !orb_false_iff in E.
    destruct E as (E0 & E1 & E2 & _). intros k Hk. destruct k as [|[|[|k]]]; try lia; assumption.
  - intros H. destruct (H 0 ltac:(lia)) as [-> ->], (H 1 ltac:(lia)) as [-> ->], (H 2 ltac:(lia)) as [-> ->]. reflexivity.
Qed.
End Merge.

Lemma strict_weak_gt {T} {ST : Scalar T} good : strict_weak good sltb -> strict_weak good gtb.
Proof.
  intros W. constructor; unfold gtb.
  - intros a Ga. apply (sw_irrefl _ _ W); exact Ga.
  - intros a b c Ga Gb Gc H1 H2. exact (sw_trans _ _ W c b a Gc Gb Ga H2 H1).
  - intros a b c Ga Gb Gc H. destruct (sw_cotrans _ _ W c b a Gc Gb Ga H); auto.
Qed.

(** ** C64 *)
(** For every element type whose < is a strict weak order: after merging a
    non-empty history into an empty box, each corner coordinate is the least
    (greatest) of the merged coordinates. *)
Theorem C64_merge_history_min_max :
  forall (cfg : Cfg) (T : Type) (ST : Scalar T) (LO : Lowest T) (good : T -> Prop) (h : list (ev T)),
  strict_weak good sltb -> limits good -> h <> [] ->
  (forall e k, In e h -> k < 3 -> between good (comp k (ev_lo e)) /\ between good (comp k (ev_hi e))) ->
  returns (b <- box_default ;; merge_all h b) (fun b => exists lo hi,
    box_getMin b = l3 lo /\ box_getMax b = l3 hi /\
    forall k, k < 3 ->
      (In (comp k lo) (map (fun e => comp k (ev_lo e)) h) /\
       forall e, In e h -> sltb (comp k (ev_lo e)) (comp k lo) = false) /\
      (In (comp k hi) (map (fun e => comp k (ev_hi e)) h) /\
       forall e, In e h -> sltb (comp k hi) (comp k (ev_hi e)) = false)).
Proof.
  intros cfg T ST LO good h W L Hn Hb. rewrite box_default_l3. cbn [bind]. rewrite merge_all_l3. apply returns_ok.
  do 2 eexists. split; [reflexivity|]. split; [reflexivity|]. intros k Hk. rewrite !comp_fold, !map_map.
  assert (C0 : forall x : T, comp k (x, x, x) = x) by (intros x; destruct k as [|[|k]]; reflexivity).
  rewrite !C0. split.
  - destruct (fold_pick_min sltb good W (map (fun e => comp k (ev_lo e)) h) smax) as [I A].
    + apply lim_max; exact L.
    + destruct h; [congruence|discriminate].
    + intros x Hx. apply in_map_iff in Hx. destruct Hx as (e & <- & He). destruct (Hb e k He Hk) as [(G & B & _) _]. auto.
    + apply (lim_max_eq _ L).
    + split; [exact I|]. intros e He. apply A. apply in_map_iff. exists e; auto.
  - destruct (fold_pick_min gtb good (strict_weak_gt good W) (map (fun e => comp k (ev_hi e)) h) slow) as [I A].
    + apply lim_low; exact L.
    + destruct h; [congruence|discriminate].
    + intros x Hx. apply in_map_iff in Hx. destruct Hx as (e & <- & He). destruct (Hb e k He Hk) as [_ (G & _ & B)]. auto.
    + unfold gtb. intros x Gx H1 H2. apply (lim_low_eq _ L); auto.
    + split; [exact I|]. intros e He. apply (A (comp k (ev_hi e))). apply in_map_iff. exists e; auto.
Qed.
Print Assumptions C64_merge_history_min_max.

(** Everything merged is inside, and every box that contains it contains the
    result. *)
Theorem C64_merge_history_smallest_enclosing :
  forall (cfg : Cfg) (T : Type) (ST : Scalar T) (LO : Lowest T) (good : T -> Prop) (h : list (ev T)),
  strict_weak good sltb -> limits good -> h <> [] ->
  (forall e k, In e h -> k < 3 -> between good (comp k (ev_lo e)) /\ between good (comp k (ev_hi e)) /\
     sltb (comp k (ev_hi e)) (comp k (ev_lo e)) = false) ->
  returns (b <- box_default ;; merge_all h b) (fun b =>
    (forall e, In e h -> box_isIn b (l3 (ev_lo e)) = Ok true /\ box_isIn b (l3 (ev_hi e)) = Ok true) /\
    (forall lo' hi',
       (forall e, In e h -> box_isIn (l3 lo', l3 hi') (l3 (ev_lo e)) = Ok true /\
                            box_isIn (l3 lo', l3 hi') (l3 (ev_hi e)) = Ok true) ->
       box_isIn (l3 lo', l3 hi') (box_getMin b) = Ok true /\
       box_isIn (l3 lo', l3 hi') (box_getMax b) = Ok true)).
Proof.
  intros cfg T ST LO good h W L Hn Hb.
  eapply returns_impl; [apply (C64_merge_history_min_max cfg T ST LO good h W L Hn)|].
  { intros e k He Hk. destruct (Hb e k He Hk) as (A & B & _). auto. }
  intros [mn mx] (lo & hi & E1 & E2 & H). cbn [box_getMin box_getMax fst snd] in *. subst mn mx. split.
  - intros e He. rewrite !box_isIn_true. split; intros k Hk; destruct (H k Hk) as [[I1 A1] [I2 A2]];
      destruct (Hb e k He Hk) as ((G1 & _) & (G2 & _) & LE); split; auto.
    + apply in_map_iff in I2. destruct I2 as (e2 & E2 & He2). destruct (Hb e2 k He2 Hk) as (_ & (G3 & _) & _).
      rewrite E2 in G3. destruct (sltb (comp k hi) (comp k (ev_lo e))) eqn:F; [|reflexivity].
      destruct (sw_cotrans _ _ W (comp k hi) (comp k (ev_hi e)) (comp k (ev_lo e)) G3 G2 G1 F) as [X|X]; [|congruence].
      rewrite (A2 e He) in X. discriminate.
    + apply in_map_iff in I1. destruct I1 as (e1 & E1 & He1). destruct (Hb e1 k He1 Hk) as ((G3 & _) & _ & _).
      rewrite E1 in G3. destruct (sltb (comp k (ev_hi e)) (comp k lo)) eqn:F; [|reflexivity].
      destruct (sw_cotrans _ _ W (comp k (ev_hi e)) (comp k (ev_lo e)) (comp k lo) G2 G1 G3 F) as [X|X]; [congruence|].
      rewrite (A1 e He) in X. discriminate.
  - intros lo' hi' Hc. rewrite !box_isIn_true. split; intros k Hk; destruct (H k Hk) as [[I1 A1] [I2 A2]].
    + apply in_map_iff in I1. destruct I1 as (e & <- & He). destruct (Hc e He) as [C _]. rewrite box_isIn_true in C. apply C; exact Hk.
    + apply in_map_iff in I2. destruct I2 as (e & <- & He). destruct (Hc e He) as [_ C]. rewrite box_isIn_true in C. apply C; exact Hk.
Qed.
Print Assumptions C64_merge_history_smallest_enclosing.

Lemma l3_ext {T} (a b : T * T * T) : (forall k, k < 3 -> comp k a = comp k b) -> l3 a = l3 b.
Proof.
  intros H. pose proof (H 0 ltac:(lia)). pose proof (H 1 ltac:(lia)). pose proof (H 2 ltac:(lia)).
  destruct a as [[x y] z], b as [[x' y'] z']. cbn in *. congruence.
Qed.

(** The order of merges does not matter (element types without distinct values
    that compare equal). *)
Theorem C64_merge_order_irrelevant :
  forall (cfg : Cfg) (T : Type) (ST : Scalar T) (LO : Lowest T) (good : T -> Prop) (h h' : list (ev T)),
  strict_weak good sltb -> (forall a b, good a -> good b -> sltb a b = false -> sltb b a = false -> a = b) ->
  good smax -> good slow ->
  (forall e k, In e h -> k < 3 -> good (comp k (ev_lo e)) /\ good (comp k (ev_hi e))) ->
  Permutation h h' ->
  (b <- box_default ;; merge_all h b) = (b <- box_default ;; merge_all h' b).
Proof.
  intros cfg T ST LO good h h' W TO Gm Gl Hb HP. rewrite box_default_l3. cbn [bind]. rewrite !merge_all_l3.
  assert (C0 : forall k, forall x : T, comp k (x, x, x) = x) by (intros k x; destruct k as [|[|k]]; reflexivity).
  do 2 f_equal; apply l3_ext; intros k Hk; rewrite !comp_fold, !map_map, !C0.
  - apply (fold_pick_perm sltb good W); [exact TO|exact Gm| |].
    + intros x Hx. apply in_map_iff in Hx. destruct Hx as (e & <- & He). apply Hb; assumption.
    + apply Permutation_map; exact HP.
  - apply (fold_pick_perm gtb good (strict_weak_gt good W)); [|exact Gl| |].
    + intros a b Ga Gb H1 H2. apply TO; auto.
    + intros x Hx. apply in_map_iff in Hx. destruct Hx as (e & <- & He). apply Hb; assumption.
    + apply Permutation_map; exact HP.
Qed.
Print Assumptions C64_merge_order_irrelevant.

(** The lowest values of the element types. *)
#[export] Instance RLowest `{RLim} : Lowest R := {| slow := (- rmax)%R |}.
Definition F64Lowest : Lowest f64 := {| slow := f64_lowest |}.
Definition SIntLowest (k : Z) : Lowest (option Z) := {| slow := Some (- 2 ^ k)%Z |}.
Definition UIntLowest : Lowest Z := {| slow := 0%Z |}.
Definition f64_finite (x : f64) : Prop := is_finite 53 1024 x = true.

Lemma f64_key_eq (x y : f64) : f64_finite x -> f64_finite y -> is_finite_strict 53 1024 y = true ->
  Bltb x y = false -> Bltb y x = false -> x = y.
Proof.
  intros Fx Fy Sy H1 H2.
  assert (Nx : not_nan x) by (destruct x; try discriminate; reflexivity).
  assert (Ny : not_nan y) by (destruct y; try discriminate; reflexivity).
  assert (Ex : key_of x = KFin (B2R 53 1024 x)) by (destruct x; try discriminate; reflexivity).
  assert (Ey : key_of y = KFin (B2R 53 1024 y)) by (destruct y; try discriminate; reflexivity).
  pose proof (Bltb_key x y Nx Ny) as K1. pose proof (Bltb_key y x Ny Nx) as K2. rewrite Ex, Ey in *. cbn [key_lt] in *.
  assert (E : B2R 53 1024 x = B2R 53 1024 y).
  { apply Rle_antisym; apply Rnot_lt_le; intros F; [apply K2 in F|apply K1 in F]; congruence. }
  apply (B2R_inj 53 1024); try assumption.
  destruct x; try discriminate; [|reflexivity].
  exfalso. destruct y; try discriminate. cbn [B2R] in E. symmetry in E. apply Float_prop.eq_0_F2R in E. destruct s0; discriminate.
Qed.

(** Real, binary64 (finite), signed and unsigned integer coordinates satisfy the
    hypotheses above. *)
Example C64_hypotheses_met :
  (forall lim : RLim, strict_weak (fun _ : R => True) sltb /\ limits (fun _ : R => True) /\
     forall x, (- rmax <= x <= rmax)%R -> between (fun _ => True) x) /\
  (strict_weak f64_finite (@sltb _ F64Scalar) /\ limits (ST := F64Scalar) (LO := F64Lowest) f64_finite) /\
  (forall k, (0 <= k)%Z -> strict_weak (fun x => x <> None) (@sltb _ (SIntScalar k)) /\
     limits (ST := SIntScalar k) (LO := SIntLowest k) (fun x => x <> None) /\
     forall z, (- 2 ^ k <= z < 2 ^ k)%Z -> between (ST := SIntScalar k) (LO := SIntLowest k) (fun x => x <> None) (Some z)) /\
  (forall k, strict_weak (fun _ => True) (@sltb _ (UIntScalar k)) /\
     limits (ST := UIntScalar k) (LO := UIntLowest) (fun _ => True) /\
     forall z, (0 <= z < 2 ^ k)%Z -> between (ST := UIntScalar k) (LO := UIntLowest) (fun _ => True) z).
Proof.
  split; [|split; [|split]].
  - intros lim. split; [apply R_strict_weak|]. split.
    + constructor; cbn; auto; intros x _; destruct (Rltb_spec x rmax), (Rltb_spec rmax x), (Rltb_spec x (- rmax)), (Rltb_spec (- rmax) x);
        intros; try discriminate; lra.
    + intros x Hx. split; [exact I|]. cbn. split; apply Rltb_false; lra.
  - split.
    + assert (N : forall x, f64_finite x -> not_nan x) by (intros x; destruct x; try discriminate; reflexivity).
      constructor; intros; [apply (sw_irrefl _ _ f64_strict_weak)|apply (sw_trans _ _ f64_strict_weak a b c)|apply (sw_cotrans _ _ f64_strict_weak a b c)]; auto.
    + constructor; [reflexivity|reflexivity| |]; intros x Fx H1 H2; apply f64_key_eq; auto; reflexivity.
  - intros k Hk. pose proof (Z.pow_pos_nonneg 2 k ltac:(lia) Hk). split; [apply SInt_strict_weak|]. split.
    + constructor; cbn; try congruence; intros [x|] Hx; try congruence; cbn; rewrite !Z.ltb_ge; intros; f_equal; lia.
    + intros z Hz. split; [congruence|]. cbn. rewrite !Z.ltb_ge. lia.
  - intros k. split; [apply UInt_strict_weak|]. split.
    + constructor; cbn; auto; intros x _; rewrite !Z.ltb_ge; intros; lia.
    + intros z Hz. split; [exact I|]. cbn. rewrite !Z.ltb_ge. lia.
Qed.

(** setEmpty() makes any box as good as new, for float and double. *)
Theorem C64_setEmpty :
  forall (cfg : Cfg) (T : Type) (ST : Scalar T) (LO : Lowest T) (b : box T),
  slow = slowest -> length (fst b) = 3 -> length (snd b) = 3 -> box_setEmpty b = box_default.
Proof.
  intros cfg T ST LO [mn mx] E H1 H2. cbn [fst snd] in *.
  destruct mn as [|a [|b [|c [|d mn]]]]; try discriminate. destruct mx as [|a' [|b' [|c' [|d' mx]]]]; try discriminate.
  rewrite box_default_l3, E. reflexivity.
Qed.
Print Assumptions C64_setEmpty.
(** but not for integers: after setEmpty() a point of least coordinates is
    merged wrongly. *)
Theorem C104_setEmpty_integers_refuted :
  forall (cfg : Cfg),
  (forall k, (0 < k)%Z ->
   let lo := Some (- 2 ^ k)%Z in
   (b <- box_default (ST := SIntScalar k) (LO := SIntLowest k) ;; b <- box_setEmpty (ST := SIntScalar k) b ;;
    merge_all (ST := SIntScalar k) [EPoint (lo, lo, lo)] b) =
   Ok (l3 (lo, lo, lo), l3 (Some (- 2 ^ k + 1), Some (- 2 ^ k + 1), Some (- 2 ^ k + 1))%Z)) /\
  (forall k, (1 < k)%Z ->
   (b <- box_default (ST := UIntScalar k) (LO := UIntLowest) ;; b <- box_setEmpty (ST := UIntScalar k) b ;;
    merge_all (ST := UIntScalar k) [EPoint (0, 0, 0)%Z] b) =
   Ok (l3 (0, 0, 0)%Z, l3 (1, 1, 1)%Z)).
Proof.
  intros cfg. split.
  - intros k Hk lo. pose proof (Z.pow_le_mono_r 2 1 k ltac:(lia) ltac:(lia)).
    rewrite (box_default_l3 (ST := SIntScalar k) (LO := SIntLowest k)). cbn [bind].
    match goal with |- bind ?m _ = _ => replace m with (Ok (l3 (Some (2 ^ k - 1), Some (2 ^ k - 1), Some (2 ^ k - 1))%Z,
      l3 (Some (- (2 ^ k - 1)), Some (- (2 ^ k - 1)), Some (- (2 ^ k - 1)))%Z)) by reflexivity end.
    cbn [bind]. rewrite merge_all_l3. cbn [map ev_lo ev_hi fold_left pick3]. unfold pick, gtb, lo. cbn [sltb SIntScalar cmp2].
    rewrite (proj2 (Z.ltb_lt (- 2 ^ k) (2 ^ k - 1))) by lia. rewrite (proj2 (Z.ltb_ge (- (2 ^ k - 1)) (- 2 ^ k))) by lia.
    cbn [l3]. repeat f_equal; lia.
  - intros k Hk. pose proof (Z.pow_le_mono_r 2 2 k ltac:(lia) ltac:(lia)).
    rewrite (box_default_l3 (ST := UIntScalar k) (LO := UIntLowest)). cbn [bind].
    assert (E : ((- (2 ^ k - 1)) mod 2 ^ k = 1)%Z).
    { symmetry. apply (Z.mod_unique_pos _ _ (-1)); lia. }
    match goal with |- bind ?m _ = _ => replace m with (Ok (l3 ((2 ^ k - 1), (2 ^ k - 1), (2 ^ k - 1))%Z,
      l3 ((- (2 ^ k - 1)) mod 2 ^ k, (- (2 ^ k - 1)) mod 2 ^ k, (- (2 ^ k - 1)) mod 2 ^ k)%Z)) by reflexivity end.
    rewrite E. cbn [bind]. rewrite merge_all_l3. cbn [map ev_lo ev_hi fold_left pick3]. unfold pick, gtb. cbn [sltb UIntScalar].
    rewrite (proj2 (Z.ltb_lt 0 (2 ^ k - 1))) by lia. reflexivity.
Qed.
Print Assumptions C104_setEmpty_integers_refuted.

(** ** C65 *)
Lemma Rltb_ge a b : Rltb a b = false <-> (b <= a)%R.
Proof. destruct (Rltb_spec a b); split; intros; try lra; easy. Qed.
Lemma Rleb_gt a b : Rleb a b = false <-> (b < a)%R.
Proof. destruct (Rleb_spec a b); split; intros; try lra; easy. Qed.

Theorem C65_isIn :
  forall (cfg : Cfg) (lim : RLim) (lo hi p : R * R * R),
  (exists b, box_isIn (l3 lo, l3 hi) (l3 p) = Ok b /\
     (b = true <-> forall k, k < 3 -> (comp k lo <= comp k p <= comp k hi)%R)) /\
  (exists b, box_isIn2d (l3 lo, l3 hi) (l3 p) = Ok b /\
     (b = true <-> forall k, k < 2 -> (comp k lo <= comp k p <= comp k hi)%R)).
Proof.
  intros cfg lim lo hi p. split.
  - pose proof (box_isIn_true lo hi p) as H. pose proof (box_isIn_l3 lo hi p) as E.
    eexists. split; [exact E|]. rewrite E in H. match type of H with Ok ?b = _ <-> _ => set (bb := b) in * end.
    transitivity (Ok bb = Ok true); [split; congruence|]. rewrite H. cbn [sltb RScalar].
    split; intros F k Hk; specialize (F k Hk); rewrite !Rltb_ge in *; lra.
  - destruct lo as [[x y] z], hi as [[x' y'] z'], p as [[px py] pz]. cbn. eexists. split; [reflexivity|].
    match goal with |- (if ?c then false else true) = true <-> _ => transitivity (c = false); [destruct c; split; congruence|] end.
    rewrite !orb_false_iff, !Rltb_ge. split.
    + intros (((A & B) & C) & D) k Hk. destruct k as [|[|k]]; cbn; try lia; lra.
    + intros H. pose proof (H 0 ltac:(lia)). pose proof (H 1 ltac:(lia)). cbn in *. lra.
Qed.
Print Assumptions C65_isIn.

(** Merging only enlarges a box, for every element type with a strict weak
    order. *)
Theorem C65_isIn_monotone :
  forall (cfg : Cfg) (T : Type) (ST : Scalar T) (good : T -> Prop) (lo hi p : T * T * T) (e : ev T),
  strict_weak good sltb ->
  (forall k, k < 3 -> good (comp k lo) /\ good (comp k hi) /\ good (comp k p) /\
     good (comp k (ev_lo e)) /\ good (comp k (ev_hi e))) ->
  box_isIn (l3 lo, l3 hi) (l3 p) = Ok true ->
  (b <- merge_all [e] (l3 lo, l3 hi) ;; box_isIn b (l3 p)) = Ok true.
Proof.
  intros cfg T ST good lo hi p e W G H. rewrite merge_all_l3. cbn [bind]. rewrite box_isIn_true in *.
  intros k Hk. destruct (H k Hk) as [H1 H2]. destruct (G k Hk) as (G1 & G2 & G3 & G4 & G5). rewrite !comp_fold.
  cbn [map fold_left]. unfold pick, gtb. split.
  - destruct (sltb (comp k hi) (comp k (ev_hi e))) eqn:F; [|exact H1].
    destruct (sltb (comp k (ev_hi e)) (comp k p)) eqn:X; [|reflexivity].
    rewrite (sw_trans _ _ W _ _ _ G2 G5 G3 F X) in H1. discriminate.
  - destruct (sltb (comp k (ev_lo e)) (comp k lo)) eqn:F; [|exact H2].
    destruct (sltb (comp k p) (comp k (ev_lo e))) eqn:X; [|reflexivity].
    rewrite (sw_trans _ _ W _ _ _ G3 G4 G1 X F) in H2. discriminate.
Qed.
Print Assumptions C65_isIn_monotone.

Lemma Rabs_le_both a b : (Rabs a <= b -> - b <= a <= b)%R.
Proof. intros H. pose proof (Rle_abs a). pose proof (Rle_abs (- a)) as H2. rewrite Rabs_Ropp in H2. lra. Qed.

Theorem C65_center_and_size :
  forall (cfg : Cfg) (lim : RLim) (c p : R * R * R) (size : R),
  (b <- box_ctor_center (comp 0 c) (comp 1 c) (comp 2 c) size ;; box_isIn b (l3 p)) = Ok true <->
    (forall k, k < 3 -> (Rabs (comp k p - comp k c) <= size)%R).
Proof.
  intros cfg lim c p size. destruct c as [[cx cy] cz].
  assert (E : box_ctor_center cx cy cz size = Ok (l3 (cx - size, cy - size, cz - size)%R, l3 (cx + size, cy + size, cz + size)%R)).
  { unfold box_ctor_center, vec_add_assign_s, vec_sub_assign_s, vec_map_assign. destruct safe; reflexivity. }
  cbn [comp fst snd]. rewrite E. cbn [bind]. rewrite box_isIn_true. cbn [sltb RScalar].
  destruct p as [[x y] z]. split; intros H k Hk.
  - specialize (H k Hk). rewrite !Rltb_ge in H. destruct k as [|[|[|k]]]; cbn in *; try lia; apply Rabs_le; lra.
  - rewrite !Rltb_ge. specialize (H k Hk). apply Rabs_le_both in H. destruct k as [|[|[|k]]]; cbn in *; try lia; lra.
Qed.
Print Assumptions C65_center_and_size.

Lemma box_get_l3 {T} {ST : Scalar T} {cfg : Cfg} (a b : T * T * T) (u v : list T) :
  length u = 3 -> length v = 3 ->
  box_make (l3 a) (l3 b) = Ok (l3 a, l3 b) /\ box_set (u, v) (l3 a) (l3 b) = Ok (l3 a, l3 b) /\
  box_setMin (u, v) (l3 a) = Ok (l3 a, v) /\ box_setMax (u, v) (l3 b) = Ok (u, l3 b).
Proof.
  intros Hu Hv. destruct a as [[x y] z], b as [[x' y'] z'].
  destruct u as [|u0 [|u1 [|u2 [|u3 u]]]]; try discriminate. destruct v as [|v0 [|v1 [|v2 [|v3 v]]]]; try discriminate.
  repeat split.
Qed.
(** Constructors and setters agree: whatever the box contained before, set()
    leaves the same box as the constructor with the same arguments, and the
    corners are read back by getMin()/getMax(). *)
Theorem C65_set_and_get :
  forall (cfg : Cfg) (T : Type) (ST : Scalar T) (lo hi : T * T * T) (cx cy cz size : T) (u v : list T),
  length u = 3 -> length v = 3 ->
  (b <- box_set (u, v) (l3 lo) (l3 hi) ;; Ok (box_getMin b, box_getMax b)) = Ok (l3 lo, l3 hi) /\
  (b <- box_make (l3 lo) (l3 hi) ;; Ok (box_getMin b, box_getMax b)) = Ok (l3 lo, l3 hi) /\
  (b <- box_setMin (u, v) (l3 lo) ;; b <- box_setMax b (l3 hi) ;; Ok (box_getMin b, box_getMax b)) = Ok (l3 lo, l3 hi) /\
  box_set_center (u, v) cx cy cz size = box_ctor_center cx cy cz size.
Proof.
  intros cfg T ST lo hi cx cy cz size u v Hu Hv. destruct (box_get_l3 lo hi u v Hu Hv) as (E1 & E2 & E3 & _).
  rewrite E1, E2, E3. cbn [bind]. destruct (box_get_l3 lo hi (l3 lo) v) as (_ & _ & _ & E4); [destruct lo as [[? ?] ?]; reflexivity|exact Hv|].
  rewrite E4. repeat (split; [reflexivity|]).
  destruct u as [|u0 [|u1 [|u2 [|u3 u]]]]; try discriminate. destruct v as [|v0 [|v1 [|v2 [|v3 v]]]]; try discriminate.
  unfold box_ctor_center, box_set_center, vec_add_assign_s, vec_sub_assign_s, vec_map_assign, vec_add_s, vec_sub_s, vec_map.
  destruct safe; reflexivity.
Qed.
Print Assumptions C65_set_and_get.

(** ** C66 *)
(** isEmpty() is right for boxes whose upper x and z coordinates agree, e.g.
    freshly emptied ones. *)
Theorem C66_isEmpty_partial :
  forall (cfg : Cfg) (lim : RLim) (lo hi : R * R * R),
  comp 0 hi = comp 2 hi ->
  exists b, box_isEmpty (l3 lo, l3 hi) = Ok b /\
    (b = true <-> exists k, k < 3 /\ (comp k hi <= comp k lo)%R).
Proof.
  intros cfg lim lo hi. destruct lo as [[x y] z], hi as [[x' y'] z']. cbn. intros <-. eexists. split; [reflexivity|].
  rewrite !orb_true_iff, !Rleb_iff. split.
  - intros [[H|H]|H]; [exists 0|exists 1|exists 2]; cbn; (split; [lia|exact H]).
  - intros (k & Hk & H). destruct k as [|[|[|k]]]; try lia; cbn in H; auto.
Qed.
Print Assumptions C66_isEmpty_partial.
Theorem C66_new_box_is_empty :
  forall (cfg : Cfg) (lim : RLim) (u v : list R), length u = 3 -> length v = 3 ->
  (b <- box_default ;; box_isEmpty b) = Ok true /\ (b <- box_setEmpty (u, v) ;; box_isEmpty b) = Ok true /\
  (b <- box_unit ;; box_isEmpty b) = Ok false.
Proof.
  intros cfg lim u v Hu Hv. rewrite (C64_setEmpty cfg R RScalar RLowest (u, v) eq_refl Hu Hv), box_default_l3.
  assert (E : (b <- Ok (l3 (smax, smax, smax), l3 (slow, slow, slow)) ;; box_isEmpty b) = Ok true).
  { cbn. pose proof rmax_pos. rewrite !Rleb_true by lra. reflexivity. }
  split; [exact E|]. split; [exact E|]. cbn. rewrite !Rleb_false by lra. reflexivity.
Qed.
Print Assumptions C66_new_box_is_empty.
(** In general the third comparison is with the wrong coordinate. *)
Theorem C66_isEmpty_refuted :
  forall (cfg : Cfg) (lim : RLim),
  (forall lo hi : R * R * R, exists b, box_isEmpty (l3 lo, l3 hi) = Ok b /\
    (b = true <-> (comp 0 hi <= comp 0 lo \/ comp 1 hi <= comp 1 lo \/ comp 0 hi <= comp 2 lo)%R)) /\
  (box_isEmpty (l3 (0, 0, 5)%R, l3 (1, 1, 10)%R) = Ok true /\
   forall k, k < 3 -> (comp k (0, 0, 5) < comp k (1, 1, 10))%R) /\
  (box_isEmpty (l3 (0, 0, 5)%R, l3 (10, 10, 3)%R) = Ok false /\
   (comp 2 (10, 10, 3) <= comp 2 (0, 0, 5))%R).
Proof.
  intros cfg lim. split; [|split].
  - intros lo hi. destruct lo as [[x y] z], hi as [[x' y'] z']. cbn. eexists. split; [reflexivity|].
    rewrite !orb_true_iff, !Rleb_iff. tauto.
  - split; [|intros k Hk; destruct k as [|[|[|k]]]; try lia; cbn; lra].
    cbn. rewrite (Rleb_true 1 5) by lra. rewrite !orb_true_r. reflexivity.
  - split; [|cbn; lra]. cbn. rewrite !Rleb_false by lra. reflexivity.
Qed.
Print Assumptions C66_isEmpty_refuted.

(** ** C67 *)
Definition map3 {A B} (f : A -> B) (p : A * A * A) : B * B * B := let '(x, y, z) := p in (f x, f y, f z).
Definition zip3 {A} (f : A -> A -> A) (p q : A * A * A) : A * A * A :=
  let '(x, y, z) := p in let '(x', y', z') := q in (f x x', f y y', f z z').

(** For every element type. *)
Theorem C67_scalar_operators :
  forall (cfg : Cfg) (T : Type) (ST : Scalar T) (lo hi : T * T * T) (s : T),
  box_mul (l3 lo, l3 hi) s = Ok (l3 (map3 (fun x => smul x s) lo), l3 (map3 (fun x => smul x s) hi)) /\
  box_add (l3 lo, l3 hi) s = Ok (l3 (map3 (fun x => sadd x s) lo), l3 (map3 (fun x => sadd x s) hi)) /\
  box_sub (l3 lo, l3 hi) s = Ok (l3 (map3 (fun x => ssub x s) lo), l3 (map3 (fun x => ssub x s) hi)) /\
  box_mul_assign (l3 lo, l3 hi) s = box_mul (l3 lo, l3 hi) s /\
  box_add_assign (l3 lo, l3 hi) s = box_add (l3 lo, l3 hi) s /\
  box_sub_assign (l3 lo, l3 hi) s = box_sub (l3 lo, l3 hi) s /\
  box_div_assign (l3 lo, l3 hi) s = box_div (l3 lo, l3 hi) s /\
  box_getDimension (l3 lo, l3 hi) = Ok (l3 (zip3 ssub hi lo)).
Proof.
  intros cfg T ST lo hi s. destruct lo as [[x y] z], hi as [[x' y'] z'].
  unfold box_mul, box_add, box_sub, box_div, box_mul_assign, box_add_assign, box_sub_assign, box_both, box_getDimension.
  unfold vec_mul_assign_s, vec_add_assign_s, vec_sub_assign_s, vec_map_assign, vec_sub, vec_zip.
  repeat split; destruct safe; reflexivity.
Qed.
Print Assumptions C67_scalar_operators.
Theorem C67_division :
  forall (cfg : Cfg) (T : Type) (ST : Scalar T) (lo hi lo' hi' : T * T * T) (s : T),
  (forall k, k < 3 -> sdiv (comp k lo) s = Ok (comp k lo') /\ sdiv (comp k hi) s = Ok (comp k hi')) ->
  box_div (l3 lo, l3 hi) s = Ok (l3 lo', l3 hi').
Proof.
  intros cfg T ST lo hi lo' hi' s H. pose proof (H 0 ltac:(lia)) as [A0 B0]. pose proof (H 1 ltac:(lia)) as [A1 B1].
  pose proof (H 2 ltac:(lia)) as [A2 B2]. destruct lo as [[x y] z], hi as [[x' y'] z'], lo' as [[u v] w], hi' as [[u' v'] w'].
  cbn [comp fst snd] in *. unfold box_div, box_div_assign, box_both, vec_div_assign_s, vec_map_assign.
  destruct safe eqn:S; cbn; unfold vat, vset; cbn; rewrite ?S; cbn; rewrite A0; cbn; rewrite A1; cbn; rewrite A2; cbn;
    rewrite B0; cbn; rewrite B1; cbn; rewrite B2; reflexivity.
Qed.
Print Assumptions C67_division.
Example C67_division_hypotheses_met : forall lim : RLim,
  forall k, k < 3 -> sdiv (comp k (2, 4, 6)%R) 2%R = Ok (comp k (1, 2, 3)%R) /\ sdiv (comp k (8, 10, 12)%R) 2%R = Ok (comp k (4, 5, 6)%R).
Proof. intros lim k Hk. destruct k as [|[|[|k]]]; try lia; cbn; rewrite !Reqb_false by lra; split; f_equal; lra. Qed.

(** Over the reals: the centre is the midpoint; shifting moves it and keeps the
    dimension; scaling scales both. *)
Theorem C67_center :
  forall (cfg : Cfg) (lim : RLim) (lo hi : R * R * R) (s : R),
  let mid := zip3 (fun a b => (a + b) / 2)%R lo hi in
  let dim := zip3 Rminus hi lo in
  box_getCenter (l3 lo, l3 hi) = Ok (l3 mid) /\
  (b <- box_add (l3 lo, l3 hi) s ;; box_getCenter b) = Ok (l3 (map3 (fun x => x + s)%R mid)) /\
  (b <- box_add (l3 lo, l3 hi) s ;; box_getDimension b) = Ok (l3 dim) /\
  (b <- box_mul (l3 lo, l3 hi) s ;; box_getCenter b) = Ok (l3 (map3 (fun x => x * s)%R mid)) /\
  (b <- box_mul (l3 lo, l3 hi) s ;; box_getDimension b) = Ok (l3 (map3 (fun x => x * s)%R dim)) /\
  (s <> 0%R -> box_div (l3 lo, l3 hi) s = Ok (l3 (map3 (fun x => x / s)%R lo), l3 (map3 (fun x => x / s)%R hi))).
Proof.
  intros cfg lim lo hi s mid dim.
  assert (C : forall a b : R * R * R, box_getCenter (l3 a, l3 b) = Ok (l3 (zip3 (fun a b => (a + b) / 2)%R a b))).
  { intros [[x y] z] [[x' y'] z']. unfold box_getCenter, vec_sub, vec_mul_s, vec_add, vec_zip, vec_map.
    destruct safe; cbn -[Rplus Rminus Rmult Rinv Rdiv IZR]; leq; field. }
  pose proof (fun a b => C67_scalar_operators cfg R RScalar a b s) as Op.
  destruct (Op lo hi) as (E1 & E2 & _ & _ & _ & _ & _ & D).
  rewrite E1, E2. cbn [bind]. rewrite !C.
  split; [reflexivity|].
  split; [destruct lo as [[x y] z], hi as [[x' y'] z']; cbn -[Rplus Rminus Rmult Rinv Rdiv IZR]; leq; field|].
  split. { rewrite (proj2 (proj2 (proj2 (proj2 (proj2 (proj2 (proj2 (Op _ _)))))))).
    destruct lo as [[x y] z], hi as [[x' y'] z']; cbn -[Rplus Rminus Rmult Rinv Rdiv IZR]; leq; ring. }
  split; [destruct lo as [[x y] z], hi as [[x' y'] z']; cbn -[Rplus Rminus Rmult Rinv Rdiv IZR]; leq; field|].
  split. { rewrite (proj2 (proj2 (proj2 (proj2 (proj2 (proj2 (proj2 (Op _ _)))))))).
    destruct lo as [[x y] z], hi as [[x' y'] z']; cbn -[Rplus Rminus Rmult Rinv Rdiv IZR]; leq; ring. }
  intros Hs. apply C67_division. intros k Hk. cbn [sdiv RScalar]. rewrite !Reqb_false by exact Hs.
  destruct lo as [[x y] z], hi as [[x' y'] z']; destruct k as [|[|k]]; split; reflexivity.
Qed.
Print Assumptions C67_center.

(** For integers 0.5f becomes 0 and the "centre" is the lower corner. *)
Theorem C105_center_integers_refuted :
  forall (cfg : Cfg),
  (forall lo hi : Z * Z * Z, box_getCenter (ST := ZScalar) (l3 lo, l3 hi) = Ok (l3 lo)) /\
  (forall k (lo hi : Z * Z * Z), (forall i, i < 3 -> (0 <= comp i lo < 2 ^ k)%Z) ->
     box_getCenter (ST := UIntScalar k) (l3 lo, l3 hi) = Ok (l3 lo)).
Proof.
  intros cfg. split.
  - intros [[x y] z] [[x' y'] z']. unfold box_getCenter, vec_sub, vec_mul_s, vec_add, vec_zip, vec_map.
    destruct safe; cbn -[Z.add Z.sub Z.mul]; leq; ring.
  - intros k [[x y] z] [[x' y'] z'] H. pose proof (H 0 ltac:(lia)) as H0. pose proof (H 1 ltac:(lia)) as H1. pose proof (H 2 ltac:(lia)) as H2.
    cbn [comp fst snd] in *.
    assert (A : forall a b, (0 <= a < 2 ^ k)%Z -> ((a + (((b - a) mod 2 ^ k) * 0) mod 2 ^ k) mod 2 ^ k)%Z = a).
    { intros a b Ha. rewrite Z.mul_0_r, Z.mod_0_l by lia. rewrite Z.add_0_r. apply Z.mod_small; exact Ha. }
    unfold box_getCenter, vec_sub, vec_mul_s, vec_add, vec_zip, vec_map.
    destruct safe; cbn -[Z.add Z.sub Z.mul Z.modulo Z.pow]; rewrite !A by assumption; reflexivity.
Qed.
Print Assumptions C105_center_integers_refuted.

(** Equality: same corners, bit for bit. *)
Theorem C67_comparison :
  forall (cfg : Cfg) (lim : RLim) (lo hi lo' hi' : R * R * R),
  (box_eq (l3 lo, l3 hi) (l3 lo', l3 hi') = true <-> lo = lo' /\ hi = hi') /\
  box_neq (l3 lo, l3 hi) (l3 lo', l3 hi') = negb (box_eq (l3 lo, l3 hi) (l3 lo', l3 hi')).
Proof.
  intros cfg lim lo hi lo' hi'. unfold box_eq, box_neq, vec_neq, fst, snd. split; [|rewrite negb_andb; reflexivity].
  assert (E : forall a b : R * R * R, vec_eq (l3 a) (l3 b) = true <-> a = b).
  { intros [[x y] z] [[x' y'] z']. cbn. rewrite !andb_true_iff, !Reqb_iff. split; [intros (-> & -> & -> & _); reflexivity|intros [= -> -> ->]; auto]. }
  rewrite andb_true_iff, !E. tauto.
Qed.
Print Assumptions C67_comparison.
