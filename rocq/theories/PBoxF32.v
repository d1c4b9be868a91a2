(** Property C237: the bounding box of moved points, in float. *)
From Coq Require Import ZArith Reals Lra Psatz List.
From Flocq Require Import Core.Core IEEE754.BinarySingleNaN IEEE754.Binary IEEE754.Bits.
From Verif Require Import InstF InstF32 MMatrix LBase LVector LVectorR LVecProps2 LMatrix LMat4 Spec Spec3 Spec4 Spec10f Spec11 Spec12 Spec13 Spec14 Spec16 Spec17 Spec19 Spec20 MAabb PAabb LExt32 LSum LEdit LRigid PF32 LF32 PF32b LExprF PAabbF32 PNan32 PMatrix3 PRayF32 PQrF32 PQrO32 PChainF32 LRot PRotF32 PMoveF32 PEditF32 PHomF32 PAffF32 PRigidF32.
Import ListNotations.
Local Open Scope R_scope.
Local Open Scope list_scope.
Local Existing Instance F32Scalar.
Local Existing Instance F32Lowest.
Local Notation frobR := Spec14.frobR.
Local Notation comp := PAabb.comp.

(** The caller's program: every point is transformed, and a fresh box merged
    with the results. *)
Fixpoint move_points {cfg : Cfg} (V : list f32) (ps : list (f32 * f32 * f32)) (b : box f32) : res (box f32) :=
  match ps with
  | [] => Ok b
  | p :: ps' => r <- mat_mul_hom 4 4 3 V (l3 p) ;; b <- box_merge_point b r ;; move_points V ps' b
  end.
Definition box_of_moved {cfg : Cfg} (V : list f32) (ps : list (f32 * f32 * f32)) : res (box f32) :=
  b <- box_default ;; move_points V ps b.

Lemma moved_list {cfg : Cfg} (V : list f32) : forall ps rs b, Forall2 (fun p r => mat_mul_hom 4 4 3 V (l3 p) = Ok (l3 r)) ps rs ->
  move_points V ps b = merge_all (map EPoint rs) b.
Proof.
  induction ps as [|p ps IH]; intros rs b H; inversion H as [|p' r ps' rs' E HR E1 E2]; subst; [reflexivity|].
  cbn [move_points map merge_all]. rewrite E. cbn [bind]. destruct (box_merge_point b (l3 r)) as [b'| | |]; cbn [bind]; [apply IH; exact HR|reflexivity..].
Qed.
Lemma l3_cells (p : f32 * f32 * f32) i : (i < 3)%nat -> vcells (l3 p) i = val (comp i p).
Proof. destruct p as [[x y] z]. intros Hi. destruct i as [|[|[|i]]]; [reflexivity..|lia]. Qed.
Lemma l3_fin (p : f32 * f32 * f32) i : (forall x, In x (l3 p) -> fin x) -> (i < 3)%nat -> fin (comp i p).
Proof. destruct p as [[x y] z]. intros H Hi. destruct i as [|[|[|i]]]; try lia; apply H; cbn; auto. Qed.
Lemma l3_of (l : list f32) : length l = 3%nat -> exists p, l = l3 p.
Proof. destruct l as [|x [|y [|z [|]]]]; cbn; intros H; try discriminate. exists (x, y, z). reflexivity. Qed.
Lemma pick_moved {A B} (Q : A -> B -> Prop) : forall l, (forall a, In a l -> exists b, Q a b) -> exists l', Forall2 Q l l'.
Proof.
  induction l as [|a l IH]; intros H; [exists []; constructor|]. destruct (H a (or_introl eq_refl)) as (b & Hb). destruct IH as (l' & Hl); [intros; apply H; right; assumption|].
  exists (b :: l'). constructor; assumption.
Qed.
Lemma F2_left {A B} (Q : A -> B -> Prop) l l' : Forall2 Q l l' -> forall a, In a l -> exists b, In b l' /\ Q a b.
Proof. induction 1 as [|x y l l' H HF IH]; intros a []; [subst; exists y; split; [left; reflexivity|assumption]|]. destruct (IH a H0) as (b & Hb & Q'). exists b. split; [right; assumption|assumption]. Qed.
Lemma F2_right {A B} (Q : A -> B -> Prop) l l' : Forall2 Q l l' -> forall b, In b l' -> exists a, In a l /\ Q a b.
Proof. induction 1 as [|x y l l' H HF IH]; intros b []; [subst; exists x; split; [left; reflexivity|assumption]|]. destruct (IH b H0) as (a & Ha & Q'). exists a. split; [right; assumption|assumption]. Qed.

(** C237: the box around the transformed points, inflated by the transform's
    error, contains the exact image of every point, and every face of it is that
    close to the exact image of some point. *)
Theorem C237_box_of_moved_points :
  forall (cfg : Cfg) (TT : Trig f32) (d : R) (m0 : list f32) (l : list edit) (ps : list (f32 * f32 * f32)) (N : R),
  0 <= d <= / 100 -> good_trig TT d -> length m0 = 16%nat -> (forall x, In x m0 -> fin x) -> Forall ok_edit l ->
  (forall j, (j < 4)%nat -> mcells 4 m0 3 j = idR 3 j) -> Forall affine_edit l ->
  let e := 2 * INR (length l) * (2 * d + 43 / 10 / 2 ^ 24) in
  let B := reachR (map real_edit l) (frobR 4 (mcells 4 m0) + / 2 ^ 110) in
  let X := historyR (map real_edit l) (mcells 4 m0) in
  let D := (e + 40 / 2 ^ 24) * B * N in
  e <= 1 -> B <= 2 ^ 29 -> ps <> [] ->
  (forall p, In p ps -> (forall x, In x (l3 p) -> fin x /\ Rabs (val x) <= 2 ^ 30) /\ sizeR (vcells (l3 p)) <= N) ->
  exists V b lo hi, edit_all m0 l = Ok V /\ box_of_moved V ps = Ok b /\ box_getMin b = l3 lo /\ box_getMax b = l3 hi /\
  forall k, (k < 3)%nat -> fin (comp k lo) /\ fin (comp k hi) /\
    (forall p, In p ps -> val (comp k lo) - D <= homR 3 X (vcells (l3 p)) k <= val (comp k hi) + D) /\
    (exists p, In p ps /\ Rabs (val (comp k lo) - homR 3 X (vcells (l3 p)) k) <= D) /\
    (exists p, In p ps /\ Rabs (val (comp k hi) - homR 3 X (vcells (l3 p)) k) <= D).
Proof.
  intros cfg TT d m0 l ps N Hd HT L0 F0 HO A0 HA e B X D He HB NE HP.
  destruct (C233_moved_points cfg TT d m0 l Hd HT L0 F0 HO A0 HA He HB) as (V & EV & HV). fold e B X in HV.
  set (Q := fun p r : f32 * f32 * f32 => mat_mul_hom 4 4 3 V (l3 p) = Ok (l3 r) /\
    forall k, (k < 3)%nat -> fin (comp k r) /\ Rabs (val (comp k r) - homR 3 X (vcells (l3 p)) k) <= D).
  assert (EQ : forall p, In p ps -> exists r, Q p r).
  { intros p Hp. destruct (HP p Hp) as (HF & HN). destruct (HV (l3 p)) as (r & Er & Lr & Fr & Hr); [destruct p as [[x y] z]; reflexivity|exact HF|].
    destruct (l3_of r Lr) as (q & ->). exists q. split; [exact Er|]. intros k Hk. split; [apply l3_fin; assumption|]. rewrite <- l3_cells by exact Hk.
    eapply Rle_trans; [apply Hr; exact Hk|]. unfold D. apply Rmult_le_compat_l; [|exact HN].
    pose proof (Rabs_pos (vcells (l3 q) 0%nat - homR 3 X (vcells (l3 p)) 0)) as R0. pose proof (Hr 0%nat ltac:(lia)) as R1.
    assert (S1 : 1 <= sizeR (vcells (l3 p))) by apply LScreen.rsum1_pos.
    apply (Rmult_le_reg_r (sizeR (vcells (l3 p)))); lra. }
  destruct (pick_moved Q ps EQ) as (rs & HQ).
  assert (ER : forall b0, move_points V ps b0 = merge_all (map EPoint rs) b0).
  { intros b0. apply moved_list. clear - HQ. induction HQ as [|p r ps' rs' H HF IH]; constructor; [exact (proj1 H)|exact IH]. }
  destruct (C184_merge_history cfg (map EPoint rs)) as (b & Eb & lo & hi & El & Eh & Hb).
  exists V, b, lo, hi. split; [exact EV|]. split. { unfold box_of_moved. destruct box_default as [b0| | |]; cbn [bind] in *; [rewrite ER; exact Eb|discriminate..]. }
  split; [exact El|]. split; [exact Eh|]. intros k Hk. destruct (Hb k Hk) as (((NL & HL) & CL) & ((NH & HH) & CH)).
  assert (IN : forall r, In r rs -> In (EPoint r) (map EPoint rs)) by (intros r Hr; apply in_map; exact Hr).
  assert (FR : forall ev0, In ev0 (map EPoint rs) -> exists r p, ev0 = EPoint r /\ In r rs /\ In p ps /\ Q p r).
  { intros v Hv. apply in_map_iff in Hv. destruct Hv as (r & <- & Hr). destruct (F2_right Q ps rs HQ r Hr) as (p & Hp & Hq). exists r, p. auto. }
  destruct ps as [|p0 ps0]; [contradiction NE; reflexivity|]. destruct (F2_left Q _ rs HQ p0 (or_introl eq_refl)) as (r0 & Hr0 & _ & Q0). destruct (Q0 k Hk) as (F0' & _).
  assert (CL' : exists r p, In p (p0 :: ps0) /\ Q p r /\ value (comp k lo) = value (comp k r)).
  { destruct CL as [(v & Hv & E)|(_ & C)].
    - destruct (FR v Hv) as (r & p & -> & Hr & Hp & Hq). exists r, p. auto.
    - destruct (C _ (IN r0 Hr0)) as [C1|C1]; cbn [ev_lo] in C1; rewrite (value_fin _ F0') in C1; discriminate C1. }
  assert (CH' : exists r p, In p (p0 :: ps0) /\ Q p r /\ value (comp k hi) = value (comp k r)).
  { destruct CH as [(v & Hv & E)|(_ & C)].
    - destruct (FR v Hv) as (r & p & -> & Hr & Hp & Hq). exists r, p. auto.
    - destruct (C _ (IN r0 Hr0)) as [C1|C1]; cbn [ev_hi] in C1; rewrite (value_fin _ F0') in C1; discriminate C1. }
  destruct CL' as (rl & pl & Hpl & (_ & Ql) & El'). destruct CH' as (rh & ph & Hph & (_ & Qh) & Eh').
  destruct (Ql k Hk) as (Fl & Dl). destruct (Qh k Hk) as (Fh & Dh). rewrite (value_fin _ Fl) in El'. rewrite (value_fin _ Fh) in Eh'.
  destruct (value_number _ _ El') as (FL & VL). destruct (value_number _ _ Eh') as (FH & VH).
  split; [exact FL|]. split; [exact FH|]. split; [|split].
  - intros p Hp. destruct (F2_left Q _ rs HQ p Hp) as (r & Hr & _ & Qr). destruct (Qr k Hk) as (Fr & Dr). apply Rabs_le_inv in Dr.
    assert (L1 : val (comp k lo) <= val (comp k r)).
    { destruct (HL _ (IN r Hr)) as [C|C]; cbn [ev_lo] in C; rewrite (value_fin _ Fr) in C; [discriminate C|]. rewrite (value_fin _ FL) in C. exact C. }
    assert (L2 : val (comp k r) <= val (comp k hi)).
    { destruct (HH _ (IN r Hr)) as [C|C]; cbn [ev_hi] in C; rewrite (value_fin _ Fr) in C; [discriminate C|]. rewrite (value_fin _ FH) in C. exact C. }
    lra.
  - exists pl. split; [exact Hpl|]. rewrite VL. exact Dl.
  - exists ph. split; [exact Hph|]. rewrite VH. exact Dh.
Qed.
Print Assumptions C237_box_of_moved_points.

Definition exps : list (f32 * f32 * f32) := [(f32_two, f32_one, f32_zero); (f32_zero, f32_zero, f32_two)].
Example C237_hypotheses_met :
  good_trig grid_trig (/ 2 ^ 23) /\ length idm32 = 16%nat /\ (forall x, In x idm32 -> fin x) /\ Forall ok_edit exr /\
  (forall j, (j < 4)%nat -> mcells 4 idm32 3 j = idR 3 j) /\ Forall affine_edit exr /\
  2 * INR (length exr) * (2 * / 2 ^ 23 + 43 / 10 / 2 ^ 24) <= 1 /\
  reachR (map real_edit exr) (frobR 4 (mcells 4 idm32) + / 2 ^ 110) <= 2 ^ 29 /\ exps <> [] /\
  (forall p, In p exps -> (forall x, In x (l3 p) -> fin x /\ Rabs (val x) <= 2 ^ 30) /\ sizeR (vcells (l3 p)) <= 4).
Proof.
  destruct C233_hypotheses_met as (H1 & H2 & H3 & H4 & H5 & H6 & H7 & H8 & H9).
  repeat (split; [assumption|]). split; [discriminate|]. assert (Z : val f32_zero = 0) by reflexivity. assert (A2 : Rabs 2 = 2) by (apply Rabs_pos_eq; lra).
  intros p Hp. unfold exps in Hp. destruct Hp as [<-|[<-|[]]].
  - split; [exact H9|]. unfold sizeR. cbn [rsum]. rewrite !l3_cells by lia. cbn [PAabb.comp fst snd]. rewrite val_two, val_one, Z, A2, Rabs_R1, Rabs_R0. lra.
  - split; [intros x Hx; apply H9; cbn -[f32_zero f32_two f32_one] in *; tauto|]. unfold sizeR. cbn [rsum]. rewrite !l3_cells by lia. cbn [PAabb.comp fst snd]. rewrite val_two, Z, A2, Rabs_R0. lra.
Qed.
