(** What remains true of properties the code violates: C47, C98, C100-C105, C107. *)
From Coq Require Import ZArith Reals Lra Psatz Bool List Ascii.
From Flocq Require Import Core.Core IEEE754.BinarySingleNaN IEEE754.Binary IEEE754.Bits.
From Verif Require Import InstR InstZ InstF LVector LMatrix LVectorR LVector2 LF64 LVecProps LVecProps2 PVector1 PVector2 PMatrix1 PMatrix5 MMatrix2 MNum PNum MIo PIo MFrustum Spec4 PFrustum PCuller PFloat LFloat PAabb.
Import ListNotations.
Local Open Scope nat_scope.

(** ** C47 *)
(** find_abs_max_index returns the first index of a component of smallest
    absolute value, so it is right exactly if all components have the same
    absolute value. *)
Theorem C47_find_abs_max_partial :
  forall (cfg : Cfg) (lim : RLim) (M : nat) (v : list R) (f : nat -> R), 0 < M -> repV M v f ->
  exists k, vec_find_abs_max_index v = Ok k /\ k < M /\
    (forall j, j < M -> (Rabs (f k) <= Rabs (f j))%R) /\ (forall j, j < k -> (Rabs (f k) < Rabs (f j))%R) /\
    ((forall j, j < M -> (Rabs (f j) <= Rabs (f k))%R) <-> (forall i j, i < M -> j < M -> Rabs (f i) = Rabs (f j))).
Proof.
  intros cfg lim M v f HM Hv. destruct (C46_find_min_max_real cfg lim M v f HM Hv) as (_ & _ & (k & E & Hk & H1 & H2)).
  exists k. split; [rewrite (proj1 C47_find_abs_max_refuted); exact E|]. split; [exact Hk|]. split; [exact H1|]. split; [exact H2|].
  split; [|intros H j Hj; rewrite (H j k Hj Hk); lra].
  intros H i j Hi Hj. pose proof (H1 i Hi). pose proof (H1 j Hj). pose proof (H i Hi). pose proof (H j Hj). lra.
Qed.
Print Assumptions C47_find_abs_max_partial.

(** ** C98 *)
(** With safe accessors m[row][col] is the cell for indices in range and throws
    for every row beyond M and every column that is out of range: row = M is the
    only index it misses. *)
Theorem C98_bracket_partial :
  forall (cfg : Cfg) (T : Type) (ST : Scalar T) (M N : nat) (m : list T) (f : nat -> nat -> T) (r c : nat) (x : T),
  safe = true -> repM M N m f ->
  (r < M -> c < N -> mat_sq_at M N m r c = Ok (f r c)) /\
  (M < r \/ N <= c -> mat_sq_at M N m r c = Throw) /\
  (r < M -> c < N -> exists m', mat_sq_put M N m r c x = Ok m' /\ repM M N m' (fun i j => if Nat.eqb i r && Nat.eqb j c then x else f i j)) /\
  (M < r \/ N <= c -> mat_sq_put M N m r c x = Throw).
Proof.
  intros cfg T ST M N m f r c x SF Hm. unfold mat_sq_at, mat_sq_put. rewrite SF, !andb_true_r.
  assert (TH : M < r \/ N <= c -> forall (A : Type) (y : res A), (if M <? r then Throw else if N <=? c then Throw else y) = Throw).
  { intros [H|H] A y; [rewrite (proj2 (Nat.ltb_lt M r) H); reflexivity|]. rewrite (proj2 (Nat.leb_le N c) H). destruct (M <? r); reflexivity. }
  split; [|split; [intros H; apply TH, H|split; [|intros H; apply TH, H]]].
  - intros Hr Hc. rewrite (proj2 (Nat.ltb_ge M r)) by lia. rewrite (proj2 (Nat.leb_gt N c)) by lia. unfold rd. rewrite (Nat.add_comm r), (proj2 Hm r c Hr Hc). reflexivity.
  - intros Hr Hc. rewrite (proj2 (Nat.ltb_ge M r)) by lia. rewrite (proj2 (Nat.leb_gt N c)) by lia. rewrite (Nat.add_comm r).
    destruct (repM_wr M N m f r c x Hm Hr Hc) as (E & H). rewrite E. eexists. split; [reflexivity|exact H].
Qed.
Print Assumptions C98_bracket_partial.

(** ** C100 *)
Local Notation U b := {| ibits := b; isigned := false |}.
(** Targets of at most 63 bits: the call is defined, and clamps, whenever every
    scaled cell plus one half fits a long. *)
Theorem C100_quantize_clamps_partial :
  forall (cfg : Cfg) (lim : RLim) (b : Z) (M N : nat) (m : list R) (quant : list Z) (f : nat -> nat -> R) (mn mx : R),
  (1 <= b <= 63)%Z -> repM M N m f -> length quant = M * N -> (mn < mx)%R ->
  (forall i j, i < M -> j < N -> (- IZR (2 ^ 63) <= (f i j - mn) * IZR (2 ^ b - 1) / (mx - mn) + / 2 < IZR (2 ^ 63))%R) ->
  exists quant' (g : nat -> nat -> Z), mat_quantize_to (U b) M N m quant mn mx = Ok quant' /\ repM M N quant' g /\
  forall i j, i < M -> j < N ->
    (0 <= g i j <= 2 ^ b - 1)%Z /\ ((f i j <= mn)%R -> g i j = 0%Z) /\ ((mx <= f i j)%R -> g i j = (2 ^ b - 1)%Z) /\
    ((mn <= f i j <= mx)%R -> (Rabs (IZR (g i j) - (f i j - mn) * IZR (2 ^ b - 1) / (mx - mn)) <= / 2)%R).
Proof.
  intros cfg lim b M N m quant f mn mx Hb Hm Lq Hlt Hin.
  set (s := fun i j => ((f i j - mn) * IZR (2 ^ b - 1) / (mx - mn))%R).
  set (g := fun i j => Z.min (Z.max 0 (rtrunc (s i j + / 2)%R)) (2 ^ b - 1)%Z).
  pose proof (repM_nth M N quant 0%Z Lq) as Hg0.
  assert (HQ : returns (mat_quantize_to (U b) M N m quant mn mx) (fun q => repM M N q g)).
  { unfold mat_quantize_to. rewrite range_unsigned by exact Hb. cbn [bind].
    apply (iter_fill M N quant (fun i j => nth (j * M + i) quant 0%Z) g); [exact Hg0|]. intros r c q' Hr Hc Lq' _.
    unfold rd. rewrite (proj2 Hm r c Hr Hc). cbn [bind]. rewrite quantize_cell_unsigned; [reflexivity|exact Hb|exact Hlt|]. apply Hin; assumption. }
  destruct HQ as (quant' & EQ & HQ). exists quant', g. split; [exact EQ|]. split; [exact HQ|].
  intros i j Hi Hj. pose proof (pow2_ge b ltac:(lia)). set (r := (2 ^ b - 1)%Z) in *. assert (P : (0 < IZR r)%R) by (apply (IZR_lt 0); lia).
  assert (Ss : s i j = ((f i j - mn) / (mx - mn) * IZR r)%R) by (unfold s; fold r; field; lra).
  assert (LO : (f i j <= mn)%R -> (s i j <= 0)%R).
  { intros L. rewrite Ss. apply Rmult_nonpos; [|lra]. apply Rmult_nonpos; [lra|left; apply Rinv_0_lt_compat; lra]. }
  assert (HI : (mx <= f i j)%R -> (IZR r <= s i j)%R).
  { intros L. rewrite Ss. rewrite <- (Rmult_1_l (IZR r)) at 1. apply Rmult_le_compat_r; [lra|].
    apply (Rmult_le_reg_r (mx - mn)); [lra|]. unfold Rdiv. rewrite Rmult_assoc, Rinv_l by lra. lra. }
  split; [unfold g; fold r; lia|]. split; [|split].
  - intros L. specialize (LO L).
    assert (rtrunc (s i j + / 2)%R <= 0)%Z; [|unfold g; fold r; lia].
    destruct (Rlt_le_dec (s i j + / 2) 0) as [K|K]; [apply rtrunc_nonpos, K|].
    pose proof (rtrunc_pos _ K). assert (Q : (IZR (rtrunc (s i j + / 2)) < 1)%R) by lra. apply lt_IZR in Q. lia.
  - intros L. specialize (HI L). assert (r <= rtrunc (s i j + / 2)%R)%Z; [|unfold g; fold r; lia].
    pose proof (rtrunc_pos (s i j + / 2) ltac:(lra)). assert (Q : (IZR r < IZR (rtrunc (s i j + / 2) + 1))%R) by (rewrite plus_IZR; lra). apply lt_IZR in Q. lia.
  - intros L. fold (s i j).
    assert (S0 : (0 <= s i j <= IZR r)%R).
    { assert (D : (0 <= (f i j - mn) / (mx - mn) <= 1)%R).
      { split; [apply Rmult_le_pos; [lra|left; apply Rinv_0_lt_compat; lra]|]. apply (Rmult_le_reg_r (mx - mn)); [lra|]. unfold Rdiv. rewrite Rmult_assoc, Rinv_l by lra. lra. }
      rewrite Ss. split; [apply Rmult_le_pos; lra|]. rewrite <- (Rmult_1_l (IZR r)) at 2. apply Rmult_le_compat_r; lra. }
    pose proof (rtrunc_pos (s i j + / 2) ltac:(lra)) as T. set (z := rtrunc (s i j + / 2)) in *.
    assert (Z0 : (-1 < z)%Z) by (apply lt_IZR; lra). assert (Z1 : (z < r + 1)%Z) by (apply lt_IZR; rewrite plus_IZR; lra).
    replace (g i j) with z by (unfold g; fold r z; lia). apply Rabs_le. lra.
Qed.
Print Assumptions C100_quantize_clamps_partial.

(** ** C101 *)
(** Vectors and matrices of bytes none of which is a blank survive the text
    format. *)
Theorem C101_byte_text_partial :
  forall (cfg : Cfg) (ST : Scalar ascii) (M N : nat) (v m : list ascii) (f : nat -> ascii) (g : nat -> nat -> ascii),
  repV M v f -> repM M N m g -> (forall i, i < M -> is_space (f i) = false) -> (forall i j, i < M -> j < N -> is_space (g i j) = false) ->
  (exists txt, vec_write (XT := ByteText) M v [] = Ok txt /\ forall old rest, length old = M ->
     exists s, vec_read (XT := ByteText) M old {| is_chars := txt ++ rest; is_fail := false |} = Ok (v, s) /\ is_fail s = false) /\
  (exists txt, mat_write (XT := ByteText) M N m [] = Ok txt /\ forall old rest, length old = M * N ->
     exists s, mat_read (XT := ByteText) M N old {| is_chars := txt ++ rest; is_fail := false |} = Ok (m, s) /\ is_fail s = false).
Proof.
  intros cfg ST M N v m f g Hv Hm Bv Bm. split.
  - destruct (C30_vector_stream (XT := ByteText) M v f Hv (fun i Hi => byte_readable _ (Bv i Hi))) as (txt & W & Rd).
    exists txt. split; [exact (W [])|]. intros old rest L. eexists. split; [apply Rd, L|reflexivity].
  - destruct (C30_matrix_stream (XT := ByteText) M N m g Hm (fun i j Hi Hj => byte_readable _ (Bm i j Hi Hj))) as (txt & W & Rd).
    exists txt. split; [exact (W [])|]. intros old rest L. eexists. split; [apply Rd, L|reflexivity].
Qed.
Print Assumptions C101_byte_text_partial.

(** ** C102 *)
(** For matrices of finite doubles other than zero the comparison does decide
    whether the rows agree up to a sign per row. *)
Lemma bits_val (x y : f64) : fin x -> fin y -> val x <> 0%R -> (@sbits _ F64Scalar x y = true <-> val x = val y).
Proof.
  intros Fx Fy N0. cbn [sbits F64Scalar]. rewrite Z.eqb_eq. split; [intros E; apply bits_inj in E; congruence|].
  intros E. f_equal. unfold fin, val in *. apply B2R_inj; try assumption.
  - destruct x; try discriminate; [exfalso; apply N0; reflexivity|reflexivity].
  - rewrite E in N0. destruct y; try discriminate; [exfalso; apply N0; reflexivity|reflexivity].
Qed.
Lemma line_bits n (a b : list f64) (u v : nat -> f64) : repV n a u -> repV n b v ->
  (forall k, k < n -> fin (u k) /\ fin (v k) /\ val (u k) <> 0%R) ->
  returns (if @vec_neq _ F64Scalar a b then nb <- vec_neg (ST := F64Scalar) n b ;; Ok (negb (@vec_neq _ F64Scalar a nb)) else Ok true)
    (fun x => x = true <-> agree_up_to_sign n (fun k => val (u k)) (fun k => val (v k))).
Proof.
  intros Ha Hb HF. unfold vec_neq. pose proof (vec_eq_spec (ST := F64Scalar) n a b u v Ha Hb) as E1.
  assert (E1' : @vec_eq _ F64Scalar a b = true <-> forall k, k < n -> val (u k) = val (v k)).
  { rewrite E1. split; intros H k Hk; destruct (HF k Hk) as (F1 & F2 & F3); apply (bits_val _ _ F1 F2 F3); auto. }
  destruct (vec_eq a b); cbn [negb].
  - apply returns_ok. split; [|reflexivity]. intros _. left. apply E1'; reflexivity.
  - eapply returns_bind; [apply (vec_negate_spec (ST := F64Scalar) n b v Hb)|]. intros nb Hnb. apply returns_ok.
    pose proof (vec_eq_spec (ST := F64Scalar) n a nb u _ Ha Hnb) as E2.
    assert (VO : forall y : f64, val (b64_opp y) = (- val y)%R) by (intros y; unfold val, b64_opp; apply B2R_Bopp).
    assert (FO : forall y : f64, fin y -> fin (b64_opp y)) by (intros y Hy; unfold fin, b64_opp in *; rewrite is_finite_Bopp; exact Hy).
    rewrite negb_involutive, E2. unfold agree_up_to_sign. split.
    + intros H. right. intros k Hk. destruct (HF k Hk) as (F1 & F2 & F3). rewrite <- VO. apply (bits_val _ _ F1 (FO _ F2) F3). exact (H k Hk).
    + intros [H|H]; [apply E1' in H; discriminate|]. intros k Hk. destruct (HF k Hk) as (F1 & F2 & F3). apply (bits_val (u k) (b64_opp (v k)) F1 (FO _ F2) F3). rewrite VO. auto.
Qed.
Theorem C102_inverted_rows_nonzero_partial :
  forall (cfg : Cfg) (M N : nat) (m o : list f64) (f g : nat -> nat -> f64), let ST := F64Scalar in
  repM M N m f -> repM M N o g -> (forall i j, i < M -> j < N -> fin (f i j) /\ fin (g i j) /\ val (f i j) <> 0%R) ->
  returns (fun_eq_inv_rows M N m o) (fun b => b = true <-> forall i, i < M -> agree_up_to_sign N (fun j => val (f i j)) (fun j => val (g i j))) /\
  returns (fun_eq_inv_cols M N m o) (fun b => b = true <-> forall j, j < N -> agree_up_to_sign M (fun i => val (f i j)) (fun i => val (g i j))).
Proof.
  intros cfg M N m o f g ST Hm Ho HF. split.
  - apply for_all; [|reflexivity]. intros i Hi.
    destruct (mat_get_row_spec M N m f i Hm Hi) as (a & -> & Ha), (mat_get_row_spec M N o g i Ho Hi) as (b & -> & Hb).
    cbn [bind]. apply (line_bits N a b _ _ Ha Hb). intros k Hk. apply HF; assumption.
  - apply for_all; [|reflexivity]. intros j Hj.
    destruct (mat_get_column_spec M N m f j Hm Hj) as (a & -> & Ha), (mat_get_column_spec M N o g j Ho Hj) as (b & -> & Hb).
    cbn [bind]. apply (line_bits M a b _ _ Ha Hb). intros k Hk. apply HF; assumption.
Qed.
Print Assumptions C102_inverted_rows_nonzero_partial.

(** ** C103 *)
(** With a positive tolerance integer vectors compare as they should: signed
    types as long as the differences (and their absolute values) are representable,
    unsigned types as long as no component of the argument is larger; every
    vector equals itself. *)
Theorem C103_equals_int_partial :
  forall (cfg : Cfg) (k : Z) (M : nat) (tol : Z), (0 < tol)%Z ->
  (forall (u v : list (option Z)) (fu fv : nat -> Z),
   repV M u (fun i => Some (fu i)) -> repV M v (fun i => Some (fv i)) ->
   (forall i, i < M -> (Z.abs (fu i - fv i) < 2 ^ k)%Z) ->
   exists b, vec_equals (ST := SIntScalar k) M u v (Some tol) = Ok b /\ (b = true <-> forall i, i < M -> (Z.abs (fu i - fv i) < tol)%Z)) /\
  (forall (u v : list Z) (fu fv : nat -> Z), repV M u fu -> repV M v fv ->
   (forall i, i < M -> (0 <= fv i <= fu i /\ fu i < 2 ^ k)%Z) ->
   exists b, vec_equals (ST := UIntScalar k) M u v tol = Ok b /\ (b = true <-> forall i, i < M -> (fu i - fv i < tol)%Z)) /\
  (forall u : list Z, length u = M -> vec_equals (ST := UIntScalar k) M u u tol = Ok true).
Proof.
  intros cfg k M tol Ht. split; [|split].
  - intros u v fu fv Hu Hv HR. destruct (vec_equals_spec (ST := SIntScalar k) M u v _ _ (Some tol) Hu Hv) as (b & Eb & Hb).
    exists b. split; [exact Eb|]. rewrite Hb.
    assert (CL : forall z, (- 2 ^ k <= z < 2 ^ k)%Z -> clip k z = Some z).
    { intros z Hz. unfold clip, in_range. rewrite (proj2 (Z.leb_le _ _) (proj1 Hz)), (proj2 (Z.ltb_lt _ _) (proj2 Hz)). reflexivity. }
    assert (E : forall i, i < M -> @sabs _ (SIntScalar k) (@ssub _ (SIntScalar k) (Some (fu i)) (Some (fv i))) = Some (Z.abs (fu i - fv i))).
    { intros i Hi. specialize (HR i Hi). cbn [sabs ssub SIntScalar lift2]. rewrite CL by lia. cbn [lift1]. apply CL. lia. }
    split; intros H i Hi; specialize (H i Hi); rewrite (E i Hi) in *; cbn [sleb SIntScalar cmp2] in *; apply Z.leb_gt; exact H.
  - intros u v fu fv Hu Hv HR. destruct (vec_equals_spec (ST := UIntScalar k) M u v _ _ tol Hu Hv) as (b & Eb & Hb).
    exists b. split; [exact Eb|]. rewrite Hb. cbn [sleb sabs ssub UIntScalar]. split; intros H i Hi; specialize (H i Hi); specialize (HR i Hi).
    + rewrite Z.mod_small in H by lia. apply Z.leb_gt. exact H.
    + rewrite Z.mod_small by lia. apply Z.leb_gt. exact H.
  - intros u Lu. pose proof (repV_nth M u 0%Z Lu) as Hu. destruct (vec_equals_spec (ST := UIntScalar k) M u u _ _ tol Hu Hu) as (b & Eb & Hb).
    rewrite Eb. f_equal. apply Hb. intros i Hi. cbn [sleb sabs ssub UIntScalar]. rewrite Z.sub_diag, Zmod_0_l. apply Z.leb_gt. exact Ht.
Qed.
Print Assumptions C103_equals_int_partial.

(** ** C104 *)
(** After setEmpty() an integer box collects points and boxes like a new box as
    long as no upper corner has the least value of the type (or zero, for unsigned
    types) in any coordinate. *)
Lemma fold_pick_start {T : Type} (lt : T -> T -> bool) (l : list T) (a b : T) : l <> [] -> (forall x, In x l -> pick lt a x = x /\ pick lt b x = x) ->
  fold_left (pick lt) l a = fold_left (pick lt) l b.
Proof. intros Hl H. destruct l as [|x l]; [contradiction|]. cbn [fold_left]. destruct (H x (or_introl eq_refl)) as (-> & ->). reflexivity. Qed.
Lemma merge_start {cfg : Cfg} {T : Type} {ST : Scalar T} (h : list (ev T)) (lo hi hi' : T * T * T) : h <> [] ->
  (forall e k, In e h -> k < 3 -> pick gtb (comp k hi) (comp k (ev_hi e)) = comp k (ev_hi e) /\ pick gtb (comp k hi') (comp k (ev_hi e)) = comp k (ev_hi e)) ->
  merge_all h (l3 lo, l3 hi) = merge_all h (l3 lo, l3 hi').
Proof.
  intros Hh H. rewrite !merge_all_l3. f_equal. f_equal. apply l3_ext. intros k Hk. rewrite !comp_fold, !map_map.
  apply fold_pick_start; [destruct h; [contradiction|discriminate]|]. intros x Hx. apply in_map_iff in Hx as (e & <- & He). apply H; assumption.
Qed.
Theorem C104_setEmpty_integers_partial :
  forall (cfg : Cfg) (k : Z), (1 < k)%Z ->
  (forall h : list (ev (option Z)), h <> [] -> 
   (forall e j, In e h -> j < 3 -> exists z, comp j (ev_hi e) = Some z /\ (- 2 ^ k < z)%Z) ->
   forall b : box (option Z), length (fst b) = 3 -> length (snd b) = 3 ->
   (b <- box_setEmpty (ST := SIntScalar k) b ;; merge_all (ST := SIntScalar k) h b) =
   (b <- box_default (ST := SIntScalar k) (LO := SIntLowest k) ;; merge_all (ST := SIntScalar k) h b)) /\
  (forall h : list (ev Z), h <> [] -> 
   (forall e j, In e h -> j < 3 -> (0 < comp j (ev_hi e))%Z) ->
   forall b : box Z, length (fst b) = 3 -> length (snd b) = 3 ->
   (b <- box_setEmpty (ST := UIntScalar k) b ;; merge_all (ST := UIntScalar k) h b) =
   (b <- box_default (ST := UIntScalar k) (LO := UIntLowest) ;; merge_all (ST := UIntScalar k) h b)).
Proof.
  intros cfg k Hk. pose proof (Z.pow_le_mono_r 2 2 k ltac:(lia) ltac:(lia)).
  assert (C0 : forall (T : Type) j (x : T), comp j (x, x, x) = x) by (intros T j x; destruct j as [|[|j]]; reflexivity).
  split.
  - intros h Hh HP [mn mx] L1 L2. cbn [fst snd] in L1, L2.
    destruct mn as [|a1 [|a2 [|a3 [|a4 mn]]]]; try discriminate L1. destruct mx as [|b1 [|b2 [|b3 [|b4 mx]]]]; try discriminate L2.
    rewrite (box_default_l3 (ST := SIntScalar k) (LO := SIntLowest k)). cbn [bind].
    match goal with |- bind ?m _ = _ => replace m with (Ok (l3 (Some (2 ^ k - 1), Some (2 ^ k - 1), Some (2 ^ k - 1))%Z, l3 (Some (- (2 ^ k - 1)), Some (- (2 ^ k - 1)), Some (- (2 ^ k - 1)))%Z)) by reflexivity end.
    cbn [bind smax slow SIntScalar SIntLowest]. apply merge_start; [exact Hh|]. intros e j He Hj. rewrite !C0. destruct (HP e j He Hj) as (z & -> & Hz).
    unfold pick, gtb. cbn [sltb SIntScalar cmp2]. split.
    + destruct (Z.ltb_spec (- (2 ^ k - 1)) z); [reflexivity|]. f_equal. lia.
    + rewrite (proj2 (Z.ltb_lt _ _) Hz). reflexivity.
  - intros h Hh HP [mn mx] L1 L2. cbn [fst snd] in L1, L2.
    destruct mn as [|a1 [|a2 [|a3 [|a4 mn]]]]; try discriminate L1. destruct mx as [|b1 [|b2 [|b3 [|b4 mx]]]]; try discriminate L2.
    rewrite (box_default_l3 (ST := UIntScalar k) (LO := UIntLowest)). cbn [bind].
    assert (E : ((- (2 ^ k - 1)) mod 2 ^ k = 1)%Z) by (symmetry; apply (Z.mod_unique_pos _ _ (-1)); lia).
    match goal with |- bind ?m _ = _ => replace m with (Ok (l3 ((2 ^ k - 1), (2 ^ k - 1), (2 ^ k - 1))%Z, l3 ((- (2 ^ k - 1)) mod 2 ^ k, (- (2 ^ k - 1)) mod 2 ^ k, (- (2 ^ k - 1)) mod 2 ^ k)%Z)) by reflexivity end.
    rewrite E. cbn [bind smax slow UIntScalar UIntLowest]. apply merge_start; [exact Hh|]. intros e j He Hj. rewrite !C0. specialize (HP e j He Hj).
    unfold pick, gtb. cbn [sltb UIntScalar]. split.
    + destruct (Z.ltb_spec 1 (comp j (ev_hi e))); [reflexivity|]. lia.
    + rewrite (proj2 (Z.ltb_lt _ _) HP). reflexivity.
Qed.
Print Assumptions C104_setEmpty_integers_partial.

(** ** C105 *)
(** getCenter() of an integer box is the midpoint rounded down exactly for boxes
    whose edges have length 0 or 1. *)
Theorem C105_center_integers_partial :
  forall (cfg : Cfg) (lo hi : Z * Z * Z),
  (forall i, i < 3 -> (comp i lo <= comp i hi)%Z) ->
  (exists c, box_getCenter (ST := ZScalar) (l3 lo, l3 hi) = Ok (l3 c) /\
   ((forall i, i < 3 -> comp i c = ((comp i lo + comp i hi) / 2)%Z) <-> (forall i, i < 3 -> (comp i hi - comp i lo <= 1)%Z))).
Proof.
  intros cfg lo hi HL. exists lo. split; [apply C105_center_integers_refuted|].
  split; intros H i Hi; specialize (H i Hi); specialize (HL i Hi).
  - pose proof (Z.mul_succ_div_gt (comp i lo + comp i hi) 2 ltac:(lia)). lia.
  - symmetry. destruct (Z.eq_dec (comp i hi) (comp i lo)) as [E|E].
    + rewrite E. replace (comp i lo + comp i lo)%Z with (comp i lo * 2)%Z by lia. apply Z.div_mul. lia.
    + replace (comp i lo + comp i hi)%Z with (1 + comp i lo * 2)%Z by lia. rewrite Z.div_add by lia. reflexivity.
Qed.
Print Assumptions C105_center_integers_partial.

(** ** C107 *)
(** The value of a corner-built plane at a point is the Euclidean distance to
    that plane times a factor strictly between 0 and 1 (the same for all points):
    distances are always underestimated, never overestimated. *)
Local Open Scope R_scope.
Lemma len3_zero_dot (n p : V3) : len3R n = 0 -> dot3 n p = 0.
Proof.
  destruct n as [[a b] c], p as [[x y] z]. unfold len3R. cbn. intros H. apply sqrt_eq_0 in H; [|nra].
  assert (a = 0) by nra. assert (b = 0) by nra. assert (c = 0) by nra. subst. ring.
Qed.
Lemma plane_distance (h : hs) : 0 < len3R (fst h) -> forall q : V3,
  (exists p, hval h p = 0 /\ len3R (fst h) * dist3 q p = Rabs (hval h q)) /\ (forall p, hval h p = 0 -> Rabs (hval h q) <= len3R (fst h) * dist3 q p).
Proof.
  destruct h as [n d]. cbn [fst]. intros Hn q. split.
  - set (t := hval (n, d) q / (dot3 n n)).
    assert (N2 : dot3 n n = len3R n * len3R n) by (unfold len3R; rewrite sqrt_sqrt; [reflexivity|destruct n as [[a b] c]; cbn; nra]).
    assert (N0 : dot3 n n <> 0) by (rewrite N2; nra).
    exists (sub3 q (scale3 t n)). split.
    + unfold hval. cbn [fst snd]. replace (dot3 n (sub3 q (scale3 t n))) with (dot3 n q - t * dot3 n n) by (destruct n as [[a b] c], q as [[x y] z]; cbn; ring).
      unfold t, hval. cbn [fst snd]. field. exact N0.
    + unfold dist3. replace (sub3 q (sub3 q (scale3 t n))) with (scale3 t n) by (destruct n as [[a b] c], q as [[x y] z]; cbn; unfold V3; f_equal; [f_equal|]; ring).
      rewrite len3_scale. unfold t. unfold Rdiv. rewrite Rabs_mult, (Rabs_pos_eq (/ _)) by (left; apply Rinv_0_lt_compat; rewrite N2; nra).
      rewrite N2. field. lra.
  - intros p Hp. replace (hval (n, d) q) with (dot3 n (sub3 q p)).
    2:{ replace (hval (n, d) q) with (hval (n, d) q - hval (n, d) p) by lra. unfold hval. cbn [fst snd]. destruct n as [[a b] c], q as [[x y] z], p as [[x' y'] z']; cbn; ring. }
    unfold dist3. generalize (sub3 q p) as w. intros w.
    assert (C : dot3 n w * dot3 n w <= dot3 n n * dot3 w w).
    { destruct n as [[a b] c], w as [[x y] z]. cbn.
      pose proof (Rle_0_sqr (a * y - b * x)) as S1. pose proof (Rle_0_sqr (a * z - c * x)) as S2. pose proof (Rle_0_sqr (b * z - c * y)) as S3. unfold Rsqr in S1, S2, S3. nra. }
    unfold len3R. rewrite <- sqrt_mult_alt by (destruct n as [[a b] c]; cbn; nra).
    rewrite <- sqrt_Rsqr_abs. apply sqrt_le_1_alt. exact C.
Qed.
Section C107.
Context {cfg : Cfg} {lim : RLim}.
Theorem C107_corner_distance_partial :
  forall F l r b t n f s, right_handed F -> l < r -> b < t -> n < f -> 0 < s ->
  exists left right bottom top near far,
  fc_setup_corners (v3 (pt F l t (- n))) (v3 (pt F r t (- n))) (v3 (pt F l b (- n))) (v3 (pt F r b (- n)))
    (v3 (pt F (s * l) (s * t) (- f))) (v3 (pt F (s * r) (s * t) (- f))) (v3 (pt F (s * l) (s * b) (- f))) (v3 (pt F (s * r) (s * b) (- f))) =
    Ok (pl left, pl right, pl bottom, pl top, pl near, pl far) /\
  forall h, In h [left; right; bottom; top; near; far] -> exists k, 0 < k < 1 /\
    forall q, (exists p, hval h p = 0 /\ k * dist3 q p = Rabs (hval h q)) /\ (forall p, hval h p = 0 -> Rabs (hval h q) <= k * dist3 q p).
Proof.
  intros F l r b t n f s HF H1 H2 H3 Hs. unfold fc_setup_corners.
  destruct (corner_plane F l b (- n) l t (- n) (s * l) (s * t) (- f) HF) as (hl & kl & -> & Kl & Nl & Vl).
  destruct (corner_plane F (s * r) (s * t) (- f) r t (- n) r b (- n) HF) as (hr & kr & -> & Kr & Nr & Vr).
  destruct (corner_plane F (s * r) (s * b) (- f) r b (- n) l b (- n) HF) as (hb & kb & -> & Kb & Nb & Vb).
  destruct (corner_plane F l t (- n) r t (- n) (s * r) (s * t) (- f) HF) as (ht & kt & -> & Kt & Nt & Vt).
  destruct (corner_plane F r t (- n) l t (- n) l b (- n) HF) as (hn & kn & -> & Kn & Nn & Vn).
  destruct (corner_plane F (s * l) (s * b) (- f) (s * l) (s * t) (- f) (s * r) (s * t) (- f) HF) as (hf & kf & -> & Kf & Nf & Vf).
  cbn [bind]. exists hl, hr, hb, ht, hn, hf. split; [reflexivity|].
  assert (G : forall h, len3R (fst h) < 1 -> (exists p q, hval h p <> hval h q) -> exists k, 0 < k < 1 /\
    forall q, (exists p, hval h p = 0 /\ k * dist3 q p = Rabs (hval h q)) /\ (forall p, hval h p = 0 -> Rabs (hval h q) <= k * dist3 q p)).
  { intros h L1 (p & q & D). exists (len3R (fst h)).
    assert (P : 0 < len3R (fst h)).
    { destruct (sqrt_pos (dot3 (fst h) (fst h))) as [Z|Z]; [exact Z|]. exfalso. apply D. unfold hval.
      rewrite !len3_zero_dot by (symmetry; exact Z). reflexivity. }
    split; [lra|]. intros q'. apply plane_distance. exact P. }
  assert (A1 : 0 < (t - b) * (f - n) * (r - l)) by (repeat apply Rmult_lt_0_compat; lra).
  assert (A2 : 0 < s * s * ((r - l) * (t - b)) * (f - n)) by (repeat apply Rmult_lt_0_compat; lra).
  assert (Q : forall k u v : R, 0 < k -> 0 < v - u -> k * u <> k * v) by (intros; nra).
  intros h [<-|[<-|[<-|[<-|[<-|[<-|[]]]]]]]; apply G; try assumption.
  - exists (pt F l t (- n)), (pt F r t (- n)). rewrite !Vl. apply Q; [exact Kl|]. cbn. nra.
  - exists (pt F r t (- n)), (pt F l t (- n)). rewrite !Vr. apply Q; [exact Kr|]. cbn. nra.
  - exists (pt F r b (- n)), (pt F r t (- n)). rewrite !Vb. apply Q; [exact Kb|]. cbn. nra.
  - exists (pt F r t (- n)), (pt F r b (- n)). rewrite !Vt. apply Q; [exact Kt|]. cbn. nra.
  - exists (pt F r t (- n)), (pt F r t (- f)). rewrite !Vn. apply Q; [exact Kn|]. cbn. nra.
  - exists (pt F r t (- f)), (pt F r t (- n)). rewrite !Vf. apply Q; [exact Kf|]. cbn. nra.
Qed.
End C107.
Print Assumptions C107_corner_distance_partial.

(** ** Concrete cases *)
Local Close Scope R_scope.
Example C47_partial_hypotheses_met : 0 < 2 /\ repV 2 [1; -3]%R (fun k => nth k [1; -3]%R 0%R).
Proof. split; [lia|]. apply (repV_nth 2 [1; -3]%R 0%R). reflexivity. Qed.
Example C98_partial_hypotheses_met : @safe {| safe := true |} = true /\ repM 2 2 [1; 2; 3; 4] (fun i j => nth (j * 2 + i) [1; 2; 3; 4] 0) /\ 1 < 2 /\ (2 < 3 \/ 2 <= 0).
Proof. split; [reflexivity|]. split; [apply (repM_nth 2 2 [1; 2; 3; 4] 0); reflexivity|]. lia. Qed.
Example C100_partial_hypotheses_met : (* a cell outside [mn, mx] *)
  (1 <= 8 <= 63)%Z /\ (0 < 1)%R /\ (1 < 2)%R /\ (- IZR (2 ^ 63) <= (2 - 0) * IZR (2 ^ 8 - 1) / (1 - 0) + / 2 < IZR (2 ^ 63))%R.
Proof. split; [lia|]. split; [lra|]. split; [lra|]. replace (2 ^ 8 - 1)%Z with 255%Z by reflexivity. replace (2 ^ 63)%Z with 9223372036854775808%Z by reflexivity. lra. Qed.
Example C101_partial_hypotheses_met : repV 2 ["a"; "b"]%char (fun k => nth k ["a"; "b"]%char " "%char) /\ forall i, i < 2 -> is_space (nth i ["a"; "b"]%char " "%char) = false.
Proof. split; [apply (repV_nth 2 ["a"; "b"]%char " "%char); reflexivity|]. intros [|[|i]] Hi; [reflexivity|reflexivity|lia]. Qed.
Example C102_partial_hypotheses_met : repM 1 1 [f64_one] (fun i j => nth (j * 1 + i) [f64_one] f64_one) /\ fin f64_one /\ val f64_one <> 0%R.
Proof. split; [apply (repM_nth 1 1 [f64_one] f64_one); reflexivity|]. split; [reflexivity|]. rewrite val_one. lra. Qed.
Example C103_partial_hypotheses_met : (0 < 1)%Z /\ (Z.abs (7 - 9) < 2 ^ 31)%Z /\ (0 <= 7 <= 9 /\ 9 < 2 ^ 32)%Z.
Proof. lia. Qed.
Example C104_partial_hypotheses_met : (1 < 31)%Z /\ (exists z, comp 0 (ev_hi (EPoint (Some 0, Some 0, Some 0)%Z)) = Some z /\ (- 2 ^ 31 < z)%Z).
Proof. split; [lia|]. exists 0%Z. split; [reflexivity|lia]. Qed.
Example C105_partial_hypotheses_met : forall i, i < 3 -> (comp i (0, 0, 0) <= comp i (1, 0, 5))%Z.
Proof. intros [|[|[|i]]] Hi; cbn; lia. Qed.
Example C107_partial_hypotheses_met : exists F, right_handed F /\ (-1 < 1)%R /\ (1 < 3)%R.
Proof. exists {| fo := (0, 0, 0); fu := (1, 0, 0); fv := (0, 1, 0); fw := (0, 0, 1) |}%R. unfold right_handed; cbn. lra. Qed.
