(** Property C218: culling with a product of two double matrices. *)
From Coq Require Import ZArith Reals Lra Psatz List.
From Flocq Require Import Core.Core IEEE754.BinarySingleNaN IEEE754.Binary IEEE754.Bits.
From Verif Require Import InstF MMatrix LBase LVector LVectorR LMatrix MFrustum Spec Spec4 Spec11 Spec16 LSum LWorld PCuller PFloat LFloat PFloat2 LErr PCuller3 PCuller4 PChain.
Import ListNotations.
Local Open Scope R_scope.
Local Open Scope list_scope.
Local Existing Instance F64Scalar.
Local Notation bp := (bpow radix2).

(** ** Numbers *)
Lemma pow_step a b : / 2 ^ (a + b) = / 2 ^ a * / 2 ^ b.
Proof. rewrite pow_add, Rinv_mult. reflexivity. Qed.
Lemma inv_small a : 0 < / 2 ^ a <= 1.
Proof. split; [apply pow_pos_inv|]. rewrite <- Rinv_1. apply Rinv_le_contravar; [lra|]. apply pow_R1_Rle. lra. Qed.
Lemma n15 : / 2 ^ 15 = / 32768. Proof. replace (2 ^ 15) with 32768 by ring. reflexivity. Qed.
Lemma small_a : 9 * eta <= uro * / 2 ^ 140.
Proof.
  unfold eta, uro. rewrite (pow_step 882 193 : / 2 ^ 1075 = / 2 ^ 882 * / 2 ^ 193). rewrite (pow_step 53 140 : / 2 ^ 193 = / 2 ^ 53 * / 2 ^ 140).
  rewrite (pow_step 15 867 : / 2 ^ 882 = / 2 ^ 15 * / 2 ^ 867), n15. pose proof (inv_small 867) as (A & B). pose proof (inv_small 53) as (C & _). pose proof (inv_small 140) as (D & _).
  assert (0 < / 2 ^ 53 * / 2 ^ 140) by (apply Rmult_lt_0_compat; assumption). rewrite <- Rmult_assoc. rewrite <- (Rmult_1_l (/ 2 ^ 53 * / 2 ^ 140)) at 2. apply Rmult_le_compat_r; lra.
Qed.
Lemma small_b : eta * 2 ^ 140 = / 2 ^ 920 * / 32768.
Proof. unfold eta. rewrite (pow_step 935 140 : / 2 ^ 1075 = / 2 ^ 935 * / 2 ^ 140), (pow_step 920 15 : / 2 ^ 935 = / 2 ^ 920 * / 2 ^ 15), n15. rewrite Rmult_assoc, Rinv_l; [ring|]. apply pow_nonzero. lra. Qed.
Lemma small_c : / 2 ^ 1074 <= / 2 ^ 920 * / 32768.
Proof.
  rewrite (pow_step 920 154 : / 2 ^ 1074 = / 2 ^ 920 * / 2 ^ 154). apply Rmult_le_compat_l; [left; apply pow_pos_inv|]. rewrite (pow_step 15 139 : / 2 ^ 154 = / 2 ^ 15 * / 2 ^ 139), n15. pose proof (inv_small 139). lra.
Qed.
(** ** The product *)
Section Cell.
Context (a b : nat -> f64).
Hypothesis Ha : forall k, (k < 4)%nat -> okf 70 (a k).
Hypothesis Hb : forall k, (k < 4)%nat -> okf 70 (b k).
Lemma cell_ok : okf 144 (ssum 4 (fun k => smul (a k) (b k))).
Proof.
  cbn [ssum sadd smul szero F64Scalar].
  assert (M : forall k, (k < 4)%nat -> okf 140 (b64_mult mode_NE (a k) (b k))). { intros k Hk. exact (proj1 (okf_mult 70 70 140 _ _ (Ha k Hk) (Hb k Hk) eq_refl ltac:(lia))). }
  assert (Z0 : okf 140 f64_zero) by (apply (okf_const f64_zero 0 140); [reflexivity|reflexivity|rewrite Rabs_R0; apply bpow_ge_0]).
  pose proof (proj1 (okf_plus 140 141 _ _ Z0 (M 0%nat ltac:(lia)) eq_refl ltac:(lia))) as S1.
  pose proof (proj1 (okf_plus 141 142 _ _ S1 (okf_le 140 141 _ (M 1%nat ltac:(lia)) ltac:(lia)) eq_refl ltac:(lia))) as S2.
  pose proof (proj1 (okf_plus 142 143 _ _ S2 (okf_le 140 142 _ (M 2%nat ltac:(lia)) ltac:(lia)) eq_refl ltac:(lia))) as S3.
  exact (proj1 (okf_plus 143 144 _ _ S3 (okf_le 140 143 _ (M 3%nat ltac:(lia)) ltac:(lia)) eq_refl ltac:(lia))).
Qed.
Lemma cell_err : Rabs (val (ssum 4 (fun k => smul (a k) (b k))) - rsum 4 (fun k => val (a k) * val (b k))) <=
  9 / 2 * uro * rsum 4 (fun k => Rabs (val (a k)) * Rabs (val (b k))) + 9 / 2 * eta.
Proof.
  eapply Rle_trans; [exact (ssum_error a b 4 (proj1 cell_ok))|]. unfold dot_bound.
  rewrite (rsum_ext 4 (fun i => Rabs (val (a i) * val (b i))) (fun k => Rabs (val (a k)) * Rabs (val (b k)))) by (intros; apply Rabs_mult).
  set (s := rsum 4 _). assert (S0 : 0 <= s) by (unfold s; apply rsum_nonneg; intros; apply Rmult_le_pos; apply Rabs_pos).
  pose proof eta_pos as EP. replace (INR 4) with 4 by (cbn; lra).
  assert (B : 1 <= (1 + uro) ^ 4 <= 1 + 9 / 2 * uro /\ (1 + uro) ^ 4 <= 9 / 8) by (rewrite uro_val; lra). destruct B as ((B1 & B2) & B3).
  apply Rplus_le_compat; [apply Rmult_le_compat_r; lra|]. replace (4 * eta * (1 + uro) ^ 4) with (4 * (1 + uro) ^ 4 * eta) by ring. apply Rmult_le_compat_r; lra.
Qed.
End Cell.
(** 16 finite numbers of at most 2^70 each. *)
Definition mat_range (m : list f64) : Prop := length m = 16%nat /\ forall x, In x m -> fin x /\ Rabs (val x) <= 2 ^ 70.
(** The exact faces of the volume that P V clips against, with their sums. *)
Definition wfaces (P V : list f64) : list (hs * hs) :=
  world_faces (mmulR 4 (mcells 4 P) (mcells 4 V)) (mmulR 4 (absM (mcells 4 P)) (absM (mcells 4 V))).
Definition wregular (P V : list f64) : Prop :=
  forall f, In f (wfaces P V) -> / 2 ^ 140 <= len3R (fst (fst f)) /\ wcond f <= 2 ^ 40.

Lemma E70 : 2 ^ 70 = bp 70. Proof. exact (eq_sym (bpow_pow 70)). Qed.
Lemma range_cell m i j : mat_range m -> (i < 4)%nat -> (j < 4)%nat -> okf 70 (nth (j * 4 + i) m f64_zero).
Proof. intros (L & H) Hi Hj. destruct (H (nth (j * 4 + i) m f64_zero)) as (F & B); [apply nth_In; lia|]. split; [exact F|]. rewrite <- E70. exact B. Qed.
Lemma pert_face (G A Q : nat -> nat -> R) (k : nat) (s : R) : (k < 4)%nat -> s = 1 \/ s = -1 ->
  (forall i j, (i < 4)%nat -> (j < 4)%nat -> Rabs (A i j) <= Q i j /\ Rabs (G i j - A i j) <= 9 / 2 * uro * Q i j + 9 / 2 * eta) ->
  pert (5 * uro) (9 * eta) (face G s k) (face A s k) (face Q 1 k).
Proof.
  intros Hk Hs H. pose proof uro_pos as UP. pose proof eta_pos as EP.
  assert (K : forall j, (j < 4)%nat -> Rabs (A 3%nat j + s * A k j) <= Q 3%nat j + 1 * Q k j /\
    Rabs (G 3%nat j + s * G k j - (A 3%nat j + s * A k j)) <= 5 * uro * (Q 3%nat j + 1 * Q k j) + 9 * eta).
  { intros j Hj. destruct (H 3%nat j ltac:(lia) Hj) as (H1 & H2). destruct (H k j Hk Hj) as (H3 & H4).
    assert (S1 : forall x, Rabs (s * x) = Rabs x). { intros x. destruct Hs as [-> | ->]; [rewrite Rmult_1_l; reflexivity|]. replace (-1 * x) with (- x) by ring. apply Rabs_Ropp. }
    split.
    - eapply Rle_trans; [apply Rabs_triang|]. rewrite S1. lra.
    - replace (G 3%nat j + s * G k j - (A 3%nat j + s * A k j)) with ((G 3%nat j - A 3%nat j) + s * (G k j - A k j)) by ring.
      eapply Rle_trans; [apply Rabs_triang|]. rewrite S1. pose proof (Rabs_pos (A 3%nat j)). pose proof (Rabs_pos (A k j)).
      assert (0 <= uro * Q 3%nat j) by (apply Rmult_le_pos; lra). assert (0 <= uro * Q k j) by (apply Rmult_le_pos; lra). lra. }
  destruct (K 0%nat ltac:(lia)) as (A0 & B0). destruct (K 1%nat ltac:(lia)) as (A1 & B1). destruct (K 2%nat ltac:(lia)) as (A2 & B2). destruct (K 3%nat ltac:(lia)) as (A3 & B3).
  unfold pert, face. repeat split; assumption.
Qed.
Definition world_near (p : dplane) (f : hs * hs) : Prop :=
  exists h, near_unit p h /\ pert (5 * uro) (9 * eta) h (fst f) (snd f).
Lemma world_planes (cfg : Cfg) (P V : list f64) : mat_range P -> mat_range V -> wregular P V ->
  exists m cl Q, mat_mul 4 4 4 P V = Ok m /\ fc_setup m = Ok cl /\ fc_planes cl = map arr Q /\ Forall2 world_near Q (wfaces P V).
Proof.
  intros HP HV HR.
  pose proof (repM_nth 4 4 P f64_zero (proj1 HP)) as RP. pose proof (repM_nth 4 4 V f64_zero (proj1 HV)) as RV.
  destruct (mat_mul_spec 4 4 4 P V _ _ RP RV) as (m & Em & Hm). cbv beta in Hm.
  set (g := fun i j => ssum 4 (fun k => smul (nth (k * 4 + i) P f64_zero) (nth (j * 4 + k) V f64_zero))) in *.
  set (A := mmulR 4 (mcells 4 P) (mcells 4 V)). set (Q0 := mmulR 4 (absM (mcells 4 P)) (absM (mcells 4 V))).
  assert (OK : okm g).
  { intros i j Hi Hj. assert (C : okf 144 (g i j)). { apply cell_ok; intros k Hk; apply range_cell; assumption. } split; [exact (proj1 C)|]. rewrite E150. exact (proj2 (okf_le 144 150 _ C ltac:(lia))). }
  assert (CE : forall i j, (i < 4)%nat -> (j < 4)%nat -> Rabs (A i j) <= Q0 i j /\ Rabs (vals g i j - A i j) <= 9 / 2 * uro * Q0 i j + 9 / 2 * eta).
  { intros i j Hi Hj. split.
    - unfold A, Q0, mmulR. eapply Rle_trans; [apply rsum_abs|]. apply rsum_le. intros k Hk. unfold absM. rewrite Rabs_mult. apply Rle_refl.
    - apply (cell_err (fun k => nth (k * 4 + i) P f64_zero) (fun k => nth (j * 4 + k) V f64_zero)); intros k Hk; apply range_cell; assumption. }
  pose proof (fun k s Hk Hs => pert_face (vals g) A Q0 k s Hk Hs CE) as PF.
  assert (F2 : Forall2 (fun h f => pert (5 * uro) (9 * eta) h (fst f) (snd f)) (faces (vals g)) (wfaces P V)).
  { unfold faces, wfaces, world_faces. fold A Q0. repeat (apply Forall2_cons; [apply PF; [lia|auto]|]). apply Forall2_nil. }
  assert (HL : forall h, In h (faces (vals g)) -> / 2 ^ 150 <= len3R (fst h)).
  { intros h Hh. destruct (Forall2_In_l _ _ _ _ F2 Hh) as (f & Hf & PE). destruct (HR f Hf) as (L1 & C1).
    pose proof uro_pos as UP. pose proof eta_pos as EP. pose proof small_a as SA. pose proof (pow_pos_inv 140) as P140.
    assert (L0 : 0 < len3R (fst (fst f))) by lra.
    assert (HC : norm1 (fst (snd f)) <= 2 ^ 40 * len3R (fst (fst f))).
    { unfold wcond in C1. apply (Rmult_le_compat_r (len3R (fst (fst f)))) in C1; [|lra]. unfold Rdiv in C1. rewrite Rmult_assoc, Rinv_l in C1 by lra. lra. }
    destruct (len_close uro (9 * eta) h (fst f) (snd f) PE) as (D & _).
    - assert (U1 : uro * norm1 (fst (snd f)) <= uro * (2 ^ 40 * len3R (fst (fst f)))) by (apply Rmult_le_compat_l; lra).
      assert (U2 : uro * 2 ^ 40 = / 8192) by (unfold uro; rewrite (pow_step 40 13 : / 2 ^ 53 = / 2 ^ 40 * / 2 ^ 13); replace (2 ^ 13) with 8192 by ring; field; apply pow_nonzero; lra).
      rewrite <- Rmult_assoc, U2 in U1.
      assert (uro * / 2 ^ 140 <= / 1000000 * / 2 ^ 140) by (apply Rmult_le_compat_r; [lra|rewrite uro_val; lra]). lra.
    - assert (/ 2 ^ 150 <= 999 / 1000 * / 2 ^ 140); [|lra]. rewrite (pow_step 140 10 : / 2 ^ 150 = / 2 ^ 140 * / 2 ^ 10). replace (/ 2 ^ 10) with (/ 1024) by (replace (2 ^ 10) with 1024 by ring; reflexivity). lra. }
  destruct (C130_setup_planes_in_double cfg m g Hm OK HL) as (cl & Q & Ec & EQ & NU).
  exists m, cl, Q. repeat (split; [assumption|]).
  clear - NU F2. revert F2. generalize (wfaces P V). induction NU as [|p h Q hs N NU IH]; intros l F2; inversion F2; subst; constructor.
  - exists h. split; assumption.
  - apply IH. assumption.
Qed.
Lemma norm1_pos r : 0 <= norm1 r.
Proof. destruct r as [[x y] z]; cbn; pose proof (Rabs_pos x); pose proof (Rabs_pos y); pose proof (Rabs_pos z); lra. Qed.
Lemma world_margin h f q r : pert (5 * uro) (9 * eta) h (fst f) (snd f) -> / 2 ^ 140 <= len3R (fst (fst f)) -> wcond f <= 2 ^ 40 -> le3 q r ->
  0 < len3R (fst h) /\ 26 * uro * (trm h r / len3R (fst h)) + Rabs (sdist h q - wdist f q) + (norm1 r + 34) * / 2 ^ 1074 <= wmargin (/ 2 ^ 53) (/ 2 ^ 920) f r.
Proof.
  intros PE L1 C1 Hq. pose proof uro_pos as UP. pose proof eta_pos as EP. pose proof small_a as SA. pose proof (pow_pos_inv 140) as P140.
  assert (L0 : 0 < len3R (fst (fst f))) by lra. set (L := len3R (fst (fst f))) in *.
  assert (HC : norm1 (fst (snd f)) <= 2 ^ 40 * L).
  { unfold wcond in C1. fold L in C1. apply (Rmult_le_compat_r L) in C1; [|lra]. unfold Rdiv in C1. rewrite Rmult_assoc, Rinv_l in C1 by lra. lra. }
  assert (U3 : uro * / 2 ^ 140 <= / 1000000 * / 2 ^ 140) by (apply Rmult_le_compat_r; [lra|rewrite uro_val; lra]).
  assert (H1 : 5 * uro * norm1 (fst (snd f)) + 3 * (9 * eta) <= / 1000 * L).
  { assert (U1 : uro * norm1 (fst (snd f)) <= uro * (2 ^ 40 * L)) by (apply Rmult_le_compat_l; lra).
    assert (U2 : uro * 2 ^ 40 = / 8192) by (unfold uro; rewrite (pow_step 40 13 : / 2 ^ 53 = / 2 ^ 40 * / 2 ^ 13); replace (2 ^ 13) with 8192 by ring; field; apply pow_nonzero; lra).
    rewrite <- Rmult_assoc, U2 in U1. lra. }
  assert (H2 : 9 * eta <= uro * L). { eapply Rle_trans; [exact SA|]. apply Rmult_le_compat_l; lra. }
  assert (HU : 0 < uro <= / 100000) by (rewrite uro_val; lra).
  destruct (len_close uro (9 * eta) h (fst f) (snd f) PE H1) as (D & _). fold L in D. split; [lra|].
  pose proof (world_total uro (9 * eta) HU ltac:(lra) h (fst f) (snd f) PE L0 H1 H2 q r r Hq (le3_refl r)) as W. fold L in W.
  unfold wmargin, wcond, sdist, wdist. fold L. change (/ 2 ^ 53) with uro. pose proof (norm1_pos r) as N0.
  assert (I : / L <= 2 ^ 140) by (rewrite <- (Rinv_inv (2 ^ 140)); apply Rinv_le_contravar; lra).
  assert (E1 : 9 * eta / L <= 9 * (/ 2 ^ 920 * / 32768)). { rewrite <- small_b. unfold Rdiv. rewrite Rmult_assoc. apply Rmult_le_compat_l; [lra|]. apply Rmult_le_compat_l; lra. }
  assert (E2 : 9 * eta / L * (norm1 r + 1) <= 9 * (/ 2 ^ 920 * / 32768) * (norm1 r + 1)) by (apply Rmult_le_compat_r; lra).
  assert (E3 : (norm1 r + 34) * / 2 ^ 1074 <= (norm1 r + 34) * (/ 2 ^ 920 * / 32768)) by (apply Rmult_le_compat_l; [lra|exact small_c]).
  pose proof (pow_pos_inv 920) as P920. assert (E4 : 0 <= / 2 ^ 920 * norm1 r) by (apply Rmult_le_pos; lra). lra.
Qed.
Lemma le3_reach x0 x1 y0 y1 z0 z1 q : in_span x0 x1 y0 y1 z0 z1 q -> le3 q (reach x0 x1, reach y0 y1, reach z0 z1).
Proof.
  destruct q as [[x y] z]. intros (A & B & C). cbn [le3]. rewrite (Rabs_pos_eq (reach x0 x1)), (Rabs_pos_eq (reach y0 y1)), (Rabs_pos_eq (reach z0 z1)) by apply reach_pos.
  repeat split; apply reach_in; assumption.
Qed.
Lemma wdist_ball f c r q : 0 < len3R (fst (fst f)) -> in_ball c r q -> Rabs (wdist f q - wdist f c) <= r.
Proof. exact (sdist_ball (fst f) c r q). Qed.
Lemma near_sphere p f c : world_near p f -> / 2 ^ 140 <= len3R (fst (fst f)) -> wcond f <= 2 ^ 40 ->
  sane4 p /\ Rabs (hval (hsv p) c - wdist f c) + margin (hsv p) c <= wmargin (/ 2 ^ 53) (/ 2 ^ 920) f c.
Proof.
  intros (h & N & PE) L1 C1. destruct (world_margin h f c c PE L1 C1 (le3_refl c)) as (LP & M). destruct (sphere_margin p h c LP N) as (S4 & K). split; [exact S4|].
  assert (T : setup_margin h c <= 26 * uro * (trm h c / len3R (fst h)) + (norm1 c + 34) * / 2 ^ 1074).
  { destruct c as [[x y] z]. unfold setup_margin, norm1. change (trm h (x, y, z)) with (termsR h (x, y, z)). unfold Rdiv at 1 3. change (/ 2 ^ 53) with uro.
    pose proof uro_pos as UP. pose proof (pow_pos_inv 1074). assert (0 <= termsR h (x, y, z) / len3R (fst h)).
    { apply Rmult_le_pos; [|apply Rlt_le, Rinv_0_lt_compat, LP]. destruct h as [[[a1 a2] a3] a4]; cbn [termsR]; repeat apply Rplus_le_le_0_compat; apply Rabs_pos. }
    apply Rplus_le_compat; [|apply Rmult_le_compat_r; lra]. apply Rmult_le_compat_r; lra. }
  pose proof (Rabs_triang (hval (hsv p) c - sdist h c) (sdist h c - wdist f c)) as TR. replace (hval (hsv p) c - sdist h c + (sdist h c - wdist f c)) with (hval (hsv p) c - wdist f c) in TR by ring. lra.
Qed.
Lemma near_box p f x0 x1 y0 y1 z0 z1 q : world_near p f -> / 2 ^ 140 <= len3R (fst (fst f)) -> wcond f <= 2 ^ 40 -> in_span x0 x1 y0 y1 z0 z1 q ->
  Rabs (hval (hsv p) q - wdist f q) + box_margin (hsv p) x0 x1 y0 y1 z0 z1 <= wmargin (/ 2 ^ 53) (/ 2 ^ 920) f (reach x0 x1, reach y0 y1, reach z0 z1).
Proof.
  intros (h & N & PE) L1 C1 HQ. destruct (world_margin h f q _ PE L1 C1 (le3_reach _ _ _ _ _ _ q HQ)) as (LP & M). pose proof (box_margin_setup p h x0 x1 y0 y1 z0 z1 q LP N HQ) as K.
  unfold setup_box_margin in K. cbv zeta in K. unfold norm1 in M. rewrite (Rabs_pos_eq (reach x0 x1)), (Rabs_pos_eq (reach y0 y1)), (Rabs_pos_eq (reach z0 z1)) in M by apply reach_pos.
  change (trm h (reach x0 x1, reach y0 y1, reach z0 z1)) with (termsR h (reach x0 x1, reach y0 y1, reach z0 z1)) in M. unfold Rdiv at 1 3 in K. change (/ 2 ^ 53) with uro in K.
  pose proof (Rabs_triang (hval (hsv p) q - sdist h q) (sdist h q - wdist f q)) as TR. replace (hval (hsv p) q - sdist h q + (sdist h q - wdist f q)) with (hval (hsv p) q - wdist f q) in TR by ring. lra.
Qed.

(** C218: a culler set up from the product P * V of two double matrices, the
    product, the setup and the test all in double, against the exact volume that
    the product of the two given matrices clips against. *)
Theorem C218_world_sphere_culling :
  forall (cfg : Cfg) (P V : list f64) (x y z rad : f64),
  mat_range P -> mat_range V -> wregular P V -> sane x -> sane y -> sane z -> sane rad ->
  let c := (val x, val y, val z) in
  let F := wfaces P V in
  let mg := fun f => wmargin (/ 2 ^ 53) (/ 2 ^ 920) f c in
  exists m cl v, mat_mul 4 4 4 P V = Ok m /\ fc_setup m = Ok cl /\ fc_test_sphere cl [x; y; z; rad] = Ok v /\
  (v = V_NONE -> exists f, In f F /\ forall q, in_ball c (val rad) q -> wdist f q <= mg f) /\
  (v = V_FULL -> forall f q, In f F -> in_ball c (val rad) q -> - mg f <= wdist f q) /\
  (forall q, in_ball c (val rad) q -> (forall f, In f F -> mg f < wdist f q) -> v <> V_NONE) /\
  ((exists f, In f F /\ wdist f c <= - val rad - mg f) -> v = V_NONE) /\
  (0 < val rad -> (forall f, In f F -> val rad + mg f <= wdist f c) -> v = V_FULL).
Proof.
  intros cfg P V x y z rad HP HV HR Hx Hy Hz Hr c F mg. destruct (world_planes cfg P V HP HV HR) as (m & cl & Q & Em & Ec & EQ & F2). fold F in F2.
  assert (LF : forall f, In f F -> 0 < len3R (fst (fst f))). { intros f Hf. eapply Rlt_le_trans; [apply (pow_pos_inv 140)|apply (HR f Hf)]. }
  assert (NS : forall p f, In f F -> world_near p f -> sane4 p /\ Rabs (hval (hsv p) c - wdist f c) + margin (hsv p) c <= mg f).
  { intros p f Hf W. destruct (HR f Hf) as (A & B). exact (near_sphere p f c W A B). }
  assert (SP : forall p, In p Q -> sane4 p). { intros p Hp. destruct (Forall2_In_l _ _ _ _ F2 Hp) as (f & Hf & W). apply (NS p f Hf W). }
  destruct (C125_sphere_culling_in_double cl Q x y z rad EQ SP Hx Hy Hz Hr) as (v & Ev & C1 & C2 & C3 & C4). fold c in C1, C2, C3, C4.
  assert (FL : forall p, In p Q -> exists f, In f F /\ Rabs (hval (hsv p) c - wdist f c) + margin (hsv p) c <= mg f).
  { intros p Hp. destruct (Forall2_In_l _ _ _ _ F2 Hp) as (f & Hf & W). exists f. split; [exact Hf|]. apply (NS p f Hf W). }
  assert (FR : forall f, In f F -> exists p, In p Q /\ Rabs (hval (hsv p) c - wdist f c) + margin (hsv p) c <= mg f).
  { intros f Hf. destruct (Forall2_In_r _ _ _ _ F2 Hf) as (p & Hp & W). exists p. split; [exact Hp|]. apply (NS p f Hf W). }
  exists m, cl, v. repeat (split; [assumption|]).
  assert (N : v = V_NONE -> exists f, In f F /\ forall q, in_ball c (val rad) q -> wdist f q <= mg f).
  { intros Hv. destruct (C1 Hv) as (p & Hp & H). destruct (FL p Hp) as (f & Hf & M). exists f. split; [exact Hf|]. intros q Hq.
    pose proof (wdist_ball f c (val rad) q (LF _ Hf) Hq) as B. apply Rabs_le_inv in B. pose proof (Rabs_fact (hval (hsv p) c - wdist f c)). lra. }
  split; [exact N|]. split; [|split; [|split]].
  - intros Hv f q Hf Hq. destruct (FR _ Hf) as (p & Hp & M). specialize (C2 Hv p Hp).
    pose proof (wdist_ball f c (val rad) q (LF _ Hf) Hq) as B. apply Rabs_le_inv in B. pose proof (Rabs_fact (hval (hsv p) c - wdist f c)). lra.
  - intros q Hq Hin Hv. destruct (N Hv) as (f & Hf & A). specialize (A q Hq). specialize (Hin f Hf). lra.
  - intros (f & Hf & A). apply C3. destruct (FR _ Hf) as (p & Hp & M). exists p. split; [exact Hp|]. pose proof (Rabs_fact (hval (hsv p) c - wdist f c)). lra.
  - intros R0 A. apply C4; [exact R0|]. intros p Hp. destruct (FL p Hp) as (f & Hf & M). specialize (A f Hf). pose proof (Rabs_fact (hval (hsv p) c - wdist f c)). lra.
Qed.
Print Assumptions C218_world_sphere_culling.
(** The same for an axis-aligned box. *)
Theorem C218_world_box_culling :
  forall (cfg : Cfg) (P V : list f64) (x0 x1 y0 y1 z0 z1 : f64),
  mat_range P -> mat_range V -> wregular P V -> sane x0 -> sane x1 -> sane y0 -> sane y1 -> sane z0 -> sane z1 ->
  let box := in_span (val x0) (val x1) (val y0) (val y1) (val z0) (val z1) in
  let F := wfaces P V in
  let mg := fun f => wmargin (/ 2 ^ 53) (/ 2 ^ 920) f (reach (val x0) (val x1), reach (val y0) (val y1), reach (val z0) (val z1)) in
  exists m cl v, mat_mul 4 4 4 P V = Ok m /\ fc_setup m = Ok cl /\ fc_test_aabb cl [x0; x1] [y0; y1] [z0; z1] = Ok v /\
  (v = V_NONE -> exists f, In f F /\ forall q, box q -> wdist f q <= mg f) /\
  (v = V_FULL -> forall f q, In f F -> box q -> - mg f <= wdist f q) /\
  (forall q, box q -> (forall f, In f F -> mg f < wdist f q) -> v <> V_NONE) /\
  ((exists f, In f F /\ forall q, box q -> wdist f q < - mg f) -> v = V_NONE) /\
  ((forall f q, In f F -> box q -> mg f <= wdist f q) -> v = V_FULL).
Proof.
  intros cfg P V x0 x1 y0 y1 z0 z1 HP HV HR X0 X1 Y0 Y1 Z0 Z1 box F mg. destruct (world_planes cfg P V HP HV HR) as (m & cl & Q & Em & Ec & EQ & F2). fold F in F2.
  set (bm := fun p => box_margin (hsv p) (val x0) (val x1) (val y0) (val y1) (val z0) (val z1)).
  assert (NB : forall p f, In f F -> world_near p f -> forall q, box q -> Rabs (hval (hsv p) q - wdist f q) + bm p <= mg f).
  { intros p f Hf W q Hq. destruct (HR f Hf) as (A & B). exact (near_box p f _ _ _ _ _ _ q W A B Hq). }
  assert (SP : forall p, In p Q -> sane4 p). { intros p Hp. destruct (Forall2_In_l _ _ _ _ F2 Hp) as (f & Hf & W). destruct (HR f Hf) as (A & B). apply (near_sphere p f (0, 0, 0) W A B). }
  destruct (C125_box_culling_in_double cfg cl Q x0 x1 y0 y1 z0 z1 EQ SP X0 X1 Y0 Y1 Z0 Z1) as (v & Ev & C1 & C2 & C3 & C4). fold box in C1, C2, C3, C4.
  exists m, cl, v. repeat (split; [assumption|]).
  assert (N : v = V_NONE -> exists f, In f F /\ forall q, box q -> wdist f q <= mg f).
  { intros Hv. destruct (C1 Hv) as (p & Hp & H). destruct (Forall2_In_l _ _ _ _ F2 Hp) as (f & Hf & W). exists f. split; [exact Hf|]. intros q Hq.
    pose proof (NB p f Hf W q Hq) as M. specialize (H q Hq). pose proof (Rabs_fact (hval (hsv p) q - wdist f q)). unfold bm in M. lra. }
  split; [exact N|]. split; [|split; [|split]].
  - intros Hv f q Hf Hq. destruct (Forall2_In_r _ _ _ _ F2 Hf) as (p & Hp & W). specialize (C2 Hv p q Hp Hq). pose proof (NB p f Hf W q Hq) as M.
    pose proof (Rabs_fact (hval (hsv p) q - wdist f q)). unfold bm in M. lra.
  - intros q Hq Hin Hv. destruct (N Hv) as (f & Hf & A). specialize (A q Hq). specialize (Hin f Hf). lra.
  - intros (f & Hf & A). apply C3. destruct (Forall2_In_r _ _ _ _ F2 Hf) as (p & Hp & W). exists p. split; [exact Hp|]. intros q Hq. specialize (A q Hq). pose proof (NB p f Hf W q Hq) as M.
    pose proof (Rabs_fact (hval (hsv p) q - wdist f q)). unfold bm in M. lra.
  - intros A. apply C4. intros p q Hp Hq. destruct (Forall2_In_l _ _ _ _ F2 Hp) as (f & Hf & W). specialize (A f q Hf Hq). pose proof (NB p f Hf W q Hq) as M.
    pose proof (Rabs_fact (hval (hsv p) q - wdist f q)). unfold bm in M. lra.
Qed.
Print Assumptions C218_world_box_culling.

(** A perspective projection (near 2/3, far 2, column-major) and a camera at
    (-1, 0, 2) looking along -z. *)
Definition exP : list f64 := let o := f64_zero in let e := f64_one in
  [e; o; o; o;  o; e; o; o;  o; o; b64_opp f64_two; b64_opp e;  o; o; b64_opp f64_two; o].
Definition exV : list f64 := let o := f64_zero in let e := f64_one in
  [e; o; o; o;  o; e; o; o;  o; o; e; o;  e; o; b64_opp f64_two; e].
Definition f64_quarter : f64 := b64_of_bits 0x3FD0000000000000.
Lemma exvals : val (b64_opp f64_one) = -1 /\ val (b64_opp f64_two) = -2.
Proof. split; unfold val, b64_opp; rewrite B2R_Bopp; [fold (val f64_one); rewrite val_one|fold (val f64_two); rewrite val_two]; lra. Qed.
Lemma ex_in x : In x exP \/ In x exV -> fin x /\ Rabs (val x) <= 2 ^ 70.
Proof.
  destruct exvals as (V1 & V2). assert (B : 2 <= 2 ^ 70) by (replace 2 with (2 ^ 1) at 1 by ring; apply Rle_pow; [lra|lia]).
  assert (Z : fin f64_zero /\ Rabs (val f64_zero) <= 2 ^ 70) by (split; [reflexivity|change (val f64_zero) with 0; rewrite Rabs_R0; lra]).
  assert (O : fin f64_one /\ Rabs (val f64_one) <= 2 ^ 70) by (split; [reflexivity|rewrite val_one, Rabs_R1; lra]).
  assert (M : fin (b64_opp f64_one) /\ Rabs (val (b64_opp f64_one)) <= 2 ^ 70) by (split; [reflexivity|rewrite V1; unfold Rabs; destruct (Rcase_abs (-1)); lra]).
  assert (T : fin (b64_opp f64_two) /\ Rabs (val (b64_opp f64_two)) <= 2 ^ 70) by (split; [reflexivity|rewrite V2; unfold Rabs; destruct (Rcase_abs (-2)); lra]).
  intros [H|H]; unfold exP, exV in H; cbv zeta in H; repeat (destruct H as [<-|H]; [first [exact Z|exact O|exact M|exact T]|]); destruct H.
Qed.
Example C218_hypotheses_met :
  mat_range exP /\ mat_range exV /\ wregular exP exV /\ sane f64_zero /\ sane f64_one /\ sane (b64_opp f64_one) /\ sane f64_two /\ sane f64_half /\
  (forall cfg : Cfg, let cull := fun p => (m <- mat_mul 4 4 4 exP exV ;; cl <- fc_setup m ;; fc_test_sphere cl p) in
   cull [b64_opp f64_one; f64_zero; f64_one; f64_quarter] = Ok V_FULL /\
   cull [b64_opp f64_one; f64_zero; f64_one; f64_half] = Ok V_PARTIAL /\
   cull [f64_two; f64_zero; f64_one; f64_half] = Ok V_NONE) /\
  (forall cfg : Cfg, (m <- mat_mul 4 4 4 exP exV ;; cl <- fc_setup m ;; fc_test_aabb cl [f64_one; f64_two] [f64_zero; f64_one] [f64_two; f64_two]) = Ok V_NONE).
Proof.
  destruct exvals as (V1 & V2). assert (B40 : 8 <= 2 ^ 40) by (replace 8 with (2 ^ 3) by ring; apply Rle_pow; [lra|lia]).
  split; [split; [reflexivity|intros x H; apply ex_in; left; exact H]|]. split; [split; [reflexivity|intros x H; apply ex_in; right; exact H]|]. split.
  - assert (Z0 : val f64_zero = 0) by reflexivity.
    assert (A1 : Rabs (-1) = 1) by (unfold Rabs; destruct (Rcase_abs (-1)); lra). assert (A2 : Rabs (-2) = 2) by (unfold Rabs; destruct (Rcase_abs (-2)); lra).
    assert (K : forall n d s t, 1 <= dot3 n n -> norm1 s <= 8 -> / 2 ^ 140 <= len3R (fst (fst ((n, d), (s, t)))) /\ wcond ((n, d), (s, t)) <= 2 ^ 40).
    { intros n d s t H1 H2. cbn [fst snd]. unfold wcond. cbn [fst snd]. assert (L1 : 1 <= len3R n) by (unfold len3R; rewrite <- sqrt_1 at 1; apply sqrt_le_1_alt; exact H1).
      pose proof (inv_small 140). split; [lra|]. pose proof (norm1_pos s). assert (I : / len3R n <= 1) by (rewrite <- Rinv_1; apply Rinv_le_contravar; lra).
      apply Rle_trans with (norm1 s * 1); [|lra]. unfold Rdiv. apply Rmult_le_compat_l; assumption. }
    intros f Hf. unfold wfaces, world_faces, face in Hf. cbn [In] in Hf.
    unfold mmulR, rsum, absM, mcells in Hf. cbn [nth Nat.mul Nat.add exP exV] in Hf. rewrite ?Z0, ?V1, ?V2, ?val_one, ?A1, ?A2, ?Rabs_R0, ?Rabs_R1 in Hf.
    repeat (destruct Hf as [<-|Hf]; [apply K; [cbn [dot3]; lra|cbn [norm1]; rewrite !Rabs_pos_eq by lra; lra]|]). destruct Hf.
  - split; [apply sane_zero|]. assert (B : 2 <= 2 ^ 400) by (replace 2 with (2 ^ 1) at 1 by ring; apply Rle_pow; [lra|lia]).
    split; [split; [reflexivity|rewrite val_one, Rabs_R1; lra]|]. split; [split; [reflexivity|rewrite V1; unfold Rabs; destruct (Rcase_abs (-1)); lra]|].
    split; [split; [reflexivity|rewrite val_two, Rabs_pos_eq by lra; exact B]|]. split; [apply sane_half|]. split.
    + intros cfg. repeat split; vm_compute; reflexivity.
    + intros cfg. vm_compute; reflexivity.
Qed.
