(** Property C172: homogeneous transforms in float. *)
From Coq Require Import ZArith Reals Lra Psatz.
From Flocq Require Import Core.Core IEEE754.BinarySingleNaN IEEE754.Binary IEEE754.Bits.
From Verif Require Import InstF InstF32 LBase LVector MMatrix LMatrix Spec LSum PF32 LF32 LErr LExpr LExprF PF32b Spec11 Spec12 PChainF32 PQrF32.
Local Open Scope R_scope.
Local Open Scope list_scope.
Local Existing Instance F32Scalar.
Local Notation rnd := (round radix2 (FLT_exp (-149) 24) (Znearest (fun x => negb (Z.even x)))).
Local Notation bp := (bpow radix2).

(** The rounding of a row of m (v, 1) in float: Spec12.homErr with 24 bits. *)
Definition homErr32 (n : nat) (f : nat -> nat -> R) (v : nat -> R) (i : nat) : R :=
  ((1 + / 2 ^ 24) ^ (n + 1) - 1) * homR n (absM f) (fun j => Rabs (v j)) i + INR n * (1 + / 2 ^ 24) ^ (n + 1) / 2 ^ 150.

(** ** What the loops compute *)
Section Run.
Context {cfg : Cfg} (n : nat) (m v : list f32) (f : nat -> nat -> f32) (g : nat -> f32).
Definition hrow (i : nat) : f32 := b32_plus mode_NE (ssum n (fun c => smul (g c) (f i c))) (f i n).
Lemma hom_run : repM (n + 1) (n + 1) m f -> repV n v g ->
  returns (mat_mul_hom (n + 1) (n + 1) n m v) (fun r => repV n r (fun i => b32_div mode_NE (hrow i) (hrow n))).
Proof.
  intros Hm Hv. unfold mat_mul_hom. rewrite Nat.add_sub, Nat.add_1_r in *. rewrite for_last by lia.
  assert (TMP : forall r, (r < S n)%nat -> for_ 0 n (fun c tmp =>
             b <- vat n v c ;; a <- mat_at (S n) (S n) m r c ;; Ok (sadd tmp (smul b a))) szero = Ok (ssum n (fun c => smul (g c) (f r c)))).
  { intros r Hr. apply for_sum.
    intros c a Hc. rewrite (vat_ok n v g), (mat_at_ok (S n) (S n) m f) by (auto; lia). reflexivity. }
  match goal with |- returns (x <- for_ 0 n ?b ?z ;; _) _ =>
    assert (F : returns (for_ 0 n b z) (fun r => repV n r hrow)) end.
  { eapply fill1_all; [apply vec_default_rep|]. intros r l Hr Hl; cbv beta.
    rewrite TMP by lia. cbn [bind]. destruct (Nat.ltb_spec r n); [|lia].
    rewrite (mat_at_ok (S n) (S n) m f) by (auto; lia). cbn [bind]. rewrite vset_ok by exact Hr. reflexivity. }
  destruct F as (x & -> & Hx). cbn [bind]. cbv beta. rewrite TMP by lia. cbn [bind].
  rewrite Nat.ltb_irrefl. rewrite (mat_at_ok (S n) (S n) m f) by (auto; lia). cbn [bind].
  change (sadd (ssum n (fun c => smul (g c) (f n c))) (f n n)) with (hrow n).
  apply (vec_map_assign_spec (T := f32) n (fun y : f32 => sdiv y (hrow n)) x hrow (fun i => b32_div mode_NE (hrow i) (hrow n)) Hx).
  reflexivity.
Qed.
End Run.

Lemma sum_products_fin (a b : nat -> f32) (n : nat) : (forall i, (i < n)%nat -> okf32 30 (a i) /\ okf32 30 (b i)) -> (Z.of_nat n <= 2 ^ 10)%Z ->
  fin (ssum n (fun i => smul (a i) (b i))) /\ Rabs (val (ssum n (fun i => smul (a i) (b i)))) <= INR n * bp 60.
Proof.
  induction n as [|n IH]; intros Ha Hn.
  - cbn. split; [reflexivity|]. unfold val. cbn. rewrite Rabs_R0. lra.
  - destruct IH as (F & B); [intros i Hi; apply Ha; lia|lia|]. cbn [ssum]. set (s := ssum n (fun i => smul (a i) (b i))) in *. cbn [sadd smul F32Scalar].
    destruct (Ha n ltac:(lia)) as (Oa & Ob). destruct (okf32_mult 30 30 (a n) (b n) Oa Ob ltac:(lia)) as ((Fp & Bp) & _). change (30 + 30)%Z with 60%Z in Bp.
    assert (S1 : Rabs (val s + val (b32_mult mode_NE (a n) (b n))) <= INR (S n) * bp 60).
    { eapply Rle_trans; [apply Rabs_triang|]. rewrite S_INR. lra. }
    pose proof (rnd_le_scaled _ (S n) 60 ltac:(lia) ltac:(lia) S1) as S2.
    assert (S3 : INR (S n) * bp 60 < bp 128).
    { apply Rlt_trans with (bp (12 + 60)); [|apply bpow_lt; lia]. rewrite bpow_plus. apply Rmult_lt_compat_r; [apply bpow_gt_0|].
      rewrite INR_IZR_INZ. change (bp 12) with (IZR (2 ^ 12)). apply IZR_lt. lia. }
    destruct (plus_fin s (b32_mult mode_NE (a n) (b n)) F Fp ltac:(lra)) as (Fs & Es).
    split; [exact Fs|]. rewrite Es. exact S2.
Qed.

(** A sum of products followed by one more term. *)
Definition row_bound (n : nat) (A t : R) : R := ((1 + uro) ^ (n + 1) - 1) * (A + Rabs t) + INR n * eta * (1 + uro) ^ (n + 1).
Lemma hrow_err n f g i : fin (hrow n f g i) ->
  Rabs (val (hrow n f g i) - (rsum n (fun c => val (g c) * val (f i c)) + val (f i n))) <=
    row_bound n (rsum n (fun c => Rabs (val (g c) * val (f i c)))) (val (f i n)).
Proof.
  unfold hrow. intros F. destruct (fin_plus _ _ F) as (Fs & Ft & E). rewrite E. destruct (plus_error (ssum n (fun c => smul (g c) (f i c))) (f i n)) as (d & Hd & ->).
  pose proof (ssum_error g (fun c => f i c) n Fs) as B. unfold dot_bound in B. unfold row_bound.
  set (s := val (ssum n (fun c => smul (g c) (f i c)))) in *. set (S0 := rsum n (fun c => val (g c) * val (f i c))) in *. set (A := rsum n (fun c => Rabs (val (g c) * val (f i c)))) in *.
  assert (HA : Rabs S0 <= A) by apply rsum_abs. set (t := val (f i n)) in *. pose proof uro_pos as UP. pose proof eta_pos as EP. pose proof (pos_INR n) as NP.
  rewrite Nat.add_1_r. cbn [pow]. assert (Q : 1 <= (1 + uro) ^ n) by (apply pow_R1_Rle; lra). set (q := (1 + uro) ^ n) in *. set (k := INR n) in *.
  pose proof (Rabs_pos t) as TP. pose proof (Rabs_pos S0) as SP. clearbody s S0 A t q k.
  replace ((s + t) * (1 + d) - (S0 + t)) with ((s - S0) * (1 + d) + (S0 + t) * d) by ring.
  assert (D : Rabs (1 + d) <= 1 + uro) by (eapply Rle_trans; [apply Rabs_triang|]; rewrite Rabs_R1; lra).
  eapply Rle_trans; [apply Rabs_triang|]. rewrite !Rabs_mult.
  assert (B1 : Rabs (s - S0) * Rabs (1 + d) <= ((q - 1) * A + k * eta * q) * (1 + uro)) by (apply Rmult_le_compat; try apply Rabs_pos; assumption).
  assert (B2 : Rabs (S0 + t) * Rabs d <= (A + Rabs t) * uro).
  { apply Rmult_le_compat; try apply Rabs_pos; [|exact Hd]. eapply Rle_trans; [apply Rabs_triang|]. lra. }
  assert (B3 : uro * Rabs t <= ((1 + uro) * q - 1) * Rabs t) by (apply Rmult_le_compat_r; [exact TP|nra]).
  lra.
Qed.
Lemma quotient_err (h w H W e ew : R) : Rabs (H - h) <= e -> Rabs (W - w) <= ew -> 2 * ew <= Rabs w -> 0 < Rabs w ->
  Rabs (H / W - h / w) <= 2 * (e + Rabs (h / w) * ew) / Rabs w /\ Rabs w / 2 <= Rabs W.
Proof.
  intros He Hw H2 WP.
  assert (WW : Rabs w / 2 <= Rabs W).
  { assert (Rabs w <= Rabs W + ew). { replace w with (W + - (W - w)) by ring. eapply Rle_trans; [apply Rabs_triang|]. rewrite Rabs_Ropp. lra. } lra. }
  split; [|exact WW].
  assert (NW : W <> 0) by (intros ->; rewrite Rabs_R0 in WW; lra). assert (Nw : w <> 0) by (intros ->; rewrite Rabs_R0 in WP; lra).
  replace (H / W - h / w) with (((H - h) + - (h / w * (W - w))) * / W) by (field; split; assumption).
  rewrite Rabs_mult, Rabs_inv.
  assert (I : / Rabs W <= 2 / Rabs w).
  { replace (2 / Rabs w) with (/ (Rabs w / 2)) by (field; lra). apply Rinv_le; lra. }
  assert (N : Rabs ((H - h) + - (h / w * (W - w))) <= e + Rabs (h / w) * ew).
  { eapply Rle_trans; [apply Rabs_triang|]. rewrite Rabs_Ropp, Rabs_mult. apply Rplus_le_compat; [exact He|]. apply Rmult_le_compat_l; [apply Rabs_pos|exact Hw]. }
  replace (2 * (e + Rabs (h / w) * ew) / Rabs w) with ((e + Rabs (h / w) * ew) * (2 / Rabs w)) by (field; lra).
  apply Rmult_le_compat; [apply Rabs_pos|apply Rlt_le, Rinv_0_lt_compat; lra|exact N|exact I].
Qed.

Lemma homR_eq n f v i : homR n f v i = rsum n (fun c => v c * f i c) + f i n.
Proof.
  unfold homR, mvecR, hom1. rewrite Nat.add_1_r. cbn [rsum]. rewrite Nat.ltb_irrefl, Rmult_1_r. f_equal.
  apply rsum_ext. intros c Hc. destruct (Nat.ltb_spec c n); [ring|lia].
Qed.
Section Row.
Context (n : nat) (m v : list f32) (Lm : length m = ((n + 1) * (n + 1))%nat) (Lv : length v = n).
Let f i j := nth (j * (n + 1) + i) m f32_zero.
Let g i := nth i v f32_zero.
Lemma row_err i : (i < n + 1)%nat -> fin (hrow n f g i) ->
  Rabs (val (hrow n f g i) - homR n (mcells (n + 1) m) (vcells v) i) <= homErr32 n (mcells (n + 1) m) (vcells v) i.
Proof.
  intros Hi F. pose proof (hrow_err n f g i F) as B. unfold homErr32. rewrite !homR_eq. fold uro. unfold row_bound in B. unfold Rdiv. fold eta.
  rewrite (rsum_ext n (fun c => Rabs (vcells v c) * absM (mcells (n + 1) m) i c) (fun c => Rabs (val (g c) * val (f i c)))) by (intros c Hc; unfold absM; rewrite <- Rabs_mult; reflexivity).
  change (absM (mcells (n + 1) m) i n) with (Rabs (val (f i n))).
  change (mcells (n + 1) m i n) with (val (f i n)).
  change (fun c => vcells v c * mcells (n + 1) m i c) with (fun c => val (g c) * val (f i c)). lra.
Qed.
End Row.

(** The transform of a point by an arbitrary matrix.  [homR n f v] is
    m * (v, 1) in exact arithmetic. *)
Theorem C172_homogeneous_float :
  forall (cfg : Cfg) (n : nat) (m v : list f32),
  length m = ((n + 1) * (n + 1))%nat -> length v = n -> (Z.of_nat n <= 2 ^ 10)%Z ->
  (forall x, In x m \/ In x v -> fin x /\ Rabs (val x) <= 2 ^ 30) ->
  let h := homR n (mcells (n + 1) m) (vcells v) in
  let E := homErr32 n (mcells (n + 1) m) (vcells v) in
  / 2 ^ 40 <= Rabs (h n) -> 2 * E n <= Rabs (h n) ->
  exists r, mat_mul_hom (n + 1) (n + 1) n m v = Ok r /\ length r = n /\ (forall x, In x r -> fin x) /\
  forall i, (i < n)%nat ->
    Rabs (vcells r i - h i / h n) <=
      (1 + / 2 ^ 24) * (2 * (E i + Rabs (h i / h n) * E n) / Rabs (h n)) + / 2 ^ 24 * Rabs (h i / h n) + / 2 ^ 150.
Proof.
  intros cfg n m v Lm Lv Hn HF h E Hw HE.
  pose proof (repM_nth (n + 1) (n + 1) m f32_zero Lm) as Hm. pose proof (repV_nth n v f32_zero Lv) as Hv.
  destruct (hom_run n m v _ _ Hm Hv) as (r & Er & Hr). exists r. split; [exact Er|]. split; [apply Hr|].
  set (f := fun i j => nth (j * (n + 1) + i) m f32_zero) in *. set (g := fun i => nth i v f32_zero) in *.
  assert (E2 : 2 ^ 30 = bp 30) by exact (eq_sym (bpow_pow 30)).
  assert (E4 : / 2 ^ 40 = bp (-40)) by (change (-40)%Z with (Z.opp 40); rewrite bpow_opp, (bpow_pow 40); reflexivity).
  assert (Of : forall i j, (i < n + 1)%nat -> (j < n + 1)%nat -> okf32 30 (f i j)).
  { intros i j Hi Hj. unfold okf32. rewrite <- E2. apply HF. left. apply (nth_error_In m (j * (n + 1) + i)). apply Hm; assumption. }
  assert (Og : forall i, (i < n)%nat -> okf32 30 (g i)).
  { intros i Hi. unfold okf32. rewrite <- E2. apply HF. right. apply (nth_error_In v i). apply Hv; assumption. }
  assert (FH : forall i, (i < n + 1)%nat -> fin (hrow n f g i) /\ Rabs (val (hrow n f g i)) <= bp 73).
  { intros i Hi. destruct (sum_products_fin g (fun c => f i c) n) as (Fs & Bs); [intros c Hc; split; [apply Og; exact Hc|apply Of; lia]|exact Hn|].
    destruct (Of i n Hi ltac:(lia)) as (Ft & Bt).
    assert (B : Rabs (val (ssum n (fun c => smul (g c) (f i c)))) <= bp 72).
    { eapply Rle_trans; [exact Bs|]. change 72%Z with (12 + 60)%Z. rewrite bpow_plus. apply Rmult_le_compat_r; [apply bpow_ge_0|].
      rewrite INR_IZR_INZ. change (bp 12) with (IZR (2 ^ 12)). apply IZR_le. lia. }
    destruct (okf32_plus 72 (ssum n (fun c => smul (g c) (f i c))) (f i n)) as ((F1 & B1) & _); [split; assumption|split; [exact Ft|eapply Rle_trans; [exact Bt|apply bpow_le; lia]]|lia|].
    split; [exact F1|exact B1]. }
  assert (PW : 0 < Rabs (h n)) by (rewrite E4 in Hw; pose proof (bpow_gt_0 radix2 (-40)); lra).
  assert (C : forall i, (i < n)%nat -> fin (b32_div mode_NE (hrow n f g i) (hrow n f g n)) /\
    Rabs (val (b32_div mode_NE (hrow n f g i) (hrow n f g n)) - h i / h n) <=
      (1 + / 2 ^ 24) * (2 * (E i + Rabs (h i / h n) * E n) / Rabs (h n)) + / 2 ^ 24 * Rabs (h i / h n) + / 2 ^ 150).
  { intros i Hi. destruct (FH i ltac:(lia)) as (F1 & B1). destruct (FH n ltac:(lia)) as (F2 & B2).
    pose proof (row_err n m v i ltac:(lia) F1) as R1. pose proof (row_err n m v n ltac:(lia) F2) as R2. fold f g h E in R1, R2.
    destruct (quotient_err (h i) (h n) _ _ (E i) (E n) R1 R2 HE PW) as (Q & WW).
    assert (WL : bp (-41) <= Rabs (val (hrow n f g n))).
    { rewrite E4 in Hw. eapply Rle_trans; [|exact WW]. change (-41)%Z with (-40 + -1)%Z. rewrite bpow_plus. change (bp (-1)) with (/ 2). lra. }
    assert (NZ : val (hrow n f g n) <> 0) by (intros Z; rewrite Z, Rabs_R0 in WL; pose proof (bpow_gt_0 radix2 (-41)); lra).
    assert (QB : Rabs (val (hrow n f g i) / val (hrow n f g n)) <= bp 114).
    { unfold Rdiv. rewrite Rabs_mult, Rabs_inv. change 114%Z with (73 + 41)%Z. rewrite bpow_plus. apply Rmult_le_compat; [apply Rabs_pos|apply Rlt_le, Rinv_0_lt_compat, Rabs_pos_lt; exact NZ|exact B1|].
      change 41%Z with (Z.opp (-41)). rewrite bpow_opp. apply Rinv_le; [apply bpow_gt_0|exact WL]. }
    destruct (div_fin (hrow n f g i) (hrow n f g n) F1 NZ) as (Fd & Ed).
    { eapply Rle_lt_trans; [apply (rnd_le _ 114 ltac:(lia) QB)|]. apply bpow_lt. lia. }
    split; [exact Fd|]. rewrite Ed. destruct (rnd_error (val (hrow n f g i) / val (hrow n f g n))) as (d & e & Hd & He & ->). fold uro eta.
    set (x := val (hrow n f g i) / val (hrow n f g n)) in *. set (y := h i / h n) in *. set (D := 2 * (E i + Rabs y * E n) / Rabs (h n)) in *.
    replace (x * (1 + d) + e - y) with ((x - y) * (1 + d) + (y * d + e)) by ring. eapply Rle_trans; [apply Rabs_triang|]. rewrite Rabs_mult. rewrite Rplus_assoc. apply Rplus_le_compat.
    - rewrite Rmult_comm. apply Rmult_le_compat; try apply Rabs_pos; [|exact Q]. eapply Rle_trans; [apply Rabs_triang|]. rewrite Rabs_R1. lra.
    - eapply Rle_trans; [apply Rabs_triang|]. rewrite Rabs_mult, Rmult_comm. apply Rplus_le_compat; [|exact He]. apply Rmult_le_compat_r; [apply Rabs_pos|exact Hd]. }
  split.
  - intros x Hx. apply (In_nth _ _ f32_zero) in Hx. destruct Hx as (p & Hp & <-). destruct Hr as (Lr & Hr). rewrite Lr in Hp.
    rewrite (nth_error_nth r p f32_zero (Hr p Hp)). apply C. exact Hp.
  - intros i Hi. rewrite (rep_vcells n r _ Hr i Hi). apply C. exact Hi.
Qed.
Print Assumptions C172_homogeneous_float.

(** Affine matrices: the division is by exactly 1 and adds no error, whatever
    the magnitudes. *)
Theorem C172_affine_float :
  forall (cfg : Cfg) (n : nat) (m v : list f32),
  length m = ((n + 1) * (n + 1))%nat -> length v = n -> (forall x, In x m \/ In x v -> fin x) ->
  (forall j, (j < n + 1)%nat -> mcells (n + 1) m n j = if (j =? n)%nat then 1 else 0) ->
  exists r, mat_mul_hom (n + 1) (n + 1) n m v = Ok r /\ length r = n /\
  forall i, (i < n)%nat -> fin (nth i r f32_zero) ->
    Rabs (vcells r i - homR n (mcells (n + 1) m) (vcells v) i) <= homErr32 n (mcells (n + 1) m) (vcells v) i.
Proof.
  intros cfg n m v Lm Lv HF HL.
  pose proof (repM_nth (n + 1) (n + 1) m f32_zero Lm) as Hm. pose proof (repV_nth n v f32_zero Lv) as Hv.
  destruct (hom_run n m v _ _ Hm Hv) as (r & Er & Hr). exists r. split; [exact Er|]. split; [apply Hr|].
  set (f := fun i j => nth (j * (n + 1) + i) m f32_zero) in *. set (g := fun i => nth i v f32_zero) in *.
  assert (Ff : forall i j, (i < n + 1)%nat -> (j < n + 1)%nat -> fin (f i j)).
  { intros i j Hi Hj. apply HF. left. apply (nth_error_In m (j * (n + 1) + i)). apply Hm; assumption. }
  assert (Fg : forall i, (i < n)%nat -> fin (g i)).
  { intros i Hi. apply HF. right. apply (nth_error_In v i). apply Hv; assumption. }
  assert (R0 : rnd 0 = 0) by (apply round_0; apply valid_rnd_N).
  assert (BP : 0 < bp 128) by apply bpow_gt_0.
  assert (SZ : forall k, (k <= n)%nat -> fin (ssum k (fun c => smul (g c) (f n c))) /\ val (ssum k (fun c => smul (g c) (f n c))) = 0).
  { induction k as [|k IH]; intros Hk; [split; reflexivity|]. destruct (IH ltac:(lia)) as (F & V). cbn [ssum]. set (s := ssum k (fun c => smul (g c) (f n c))) in *. cbn [sadd smul F32Scalar].
    assert (Z : val (f n k) = 0) by (pose proof (HL k ltac:(lia)) as H; destruct (Nat.eqb_spec k n); [lia|exact H]).
    destruct (mult_fin (g k) (f n k) (Fg k ltac:(lia)) (Ff n k ltac:(lia) ltac:(lia))) as (Fp & Ep). { rewrite Z, Rmult_0_r, R0, Rabs_R0. exact BP. }
    rewrite Z, Rmult_0_r, R0 in Ep.
    destruct (plus_fin s (b32_mult mode_NE (g k) (f n k)) F Fp) as (Fs & Es). { rewrite V, Ep, Rplus_0_r, R0, Rabs_R0. exact BP. }
    split; [exact Fs|]. rewrite Es, V, Ep, Rplus_0_r. exact R0. }
  destruct (SZ n (Nat.le_refl n)) as (FS & VS).
  assert (V1 : val (f n n) = 1) by (pose proof (HL n ltac:(lia)) as H; rewrite Nat.eqb_refl in H; exact H).
  assert (R1 : rnd 1 = 1) by (change 1 with (bp 0); apply round_generic; [apply valid_rnd_N|apply format_bp; lia]).
  destruct (plus_fin _ (f n n) FS (Ff n n ltac:(lia) ltac:(lia))) as (FW & VW).
  { rewrite VS, V1, Rplus_0_l, R1, Rabs_R1. change 1 with (bp 0). apply bpow_lt. lia. }
  rewrite VS, V1, Rplus_0_l, R1 in VW. change (fin (hrow n f g n)) in FW. change (val (hrow n f g n) = 1) in VW.
  intros i Hi F. rewrite (nth_error_nth r i f32_zero (proj2 Hr i Hi)) in F. rewrite (rep_vcells n r _ Hr i Hi).
  destruct (fin_div _ _ F FW) as (FH & _ & _).
  assert (EV : val (b32_div mode_NE (hrow n f g i) (hrow n f g n)) = val (hrow n f g i)).
  { assert (RG : rnd (val (hrow n f g i) / val (hrow n f g n)) = val (hrow n f g i)).
    { rewrite VW. unfold Rdiv. rewrite Rinv_1, Rmult_1_r. apply round_generic; [apply valid_rnd_N|apply (generic_format_B2R 24 128)]. }
    destruct (div_fin (hrow n f g i) (hrow n f g n) FH) as (_ & E); [rewrite VW; lra| |rewrite E; exact RG].
    rewrite RG. apply (abs_B2R_lt_emax 24 128). }
  rewrite EV. apply row_err; [lia|exact FH].
Qed.
Print Assumptions C172_affine_float.

(** A perspective divide by 2 and a translation. *)
Example C172_hypotheses_met :
  let p := [f32_one; f32_one; f32_zero; f32_two] in      (* x + 0, w = x + 2 *)
  let a := [f32_two; f32_zero; f32_one; f32_one] in      (* 2 x + 1, w = 1 *)
  let v := [f32_one] in
  (length p = ((1 + 1) * (1 + 1))%nat /\ length v = 1%nat /\ (forall x, In x p \/ In x v -> fin x /\ Rabs (val x) <= 2 ^ 30) /\
   / 2 ^ 40 <= Rabs (homR 1 (mcells (1 + 1) p) (vcells v) 1) /\
   2 * homErr32 1 (mcells (1 + 1) p) (vcells v) 1 <= Rabs (homR 1 (mcells (1 + 1) p) (vcells v) 1)) /\
  ((forall x, In x a \/ In x v -> fin x) /\ (forall j, (j < 1 + 1)%nat -> mcells (1 + 1) a 1 j = if (j =? 1)%nat then 1 else 0)).
Proof.
  intros p a v. pose proof val_one as V1. pose proof val_two as V2. assert (V0 : val f32_zero = 0) by reflexivity.
  assert (P2 : 2 <= 2 ^ 30) by (apply Rle_trans with (2 ^ 1); [lra|apply Rle_pow; [lra|lia]]).
  assert (P4 : 1 <= 2 ^ 40) by (apply pow_R1_Rle; lra).
  assert (HW : homR 1 (mcells (1 + 1) p) (vcells v) 1 = 3).
  { rewrite homR_eq. unfold mcells, vcells, p, v. cbn [rsum nth Nat.mul Nat.add]. rewrite V1, V2. lra. }
  split; [split; [reflexivity|]; split; [reflexivity|]; split; [|split]|split].
  - intros x Hx. assert (H : x = f32_one \/ x = f32_zero \/ x = f32_two) by (unfold p, v in Hx; cbn in Hx; intuition).
    destruct H as [->|[->| ->]]; (split; [reflexivity|]); rewrite ?V1, ?V2, ?V0; rewrite Rabs_pos_eq; lra.
  - rewrite HW, Rabs_pos_eq by lra. apply Rle_trans with (/ 1); [apply Rinv_le; lra|lra].
  - rewrite HW, Rabs_pos_eq by lra. unfold homErr32. rewrite homR_eq. unfold absM, mcells, vcells, p, v. cbn [rsum nth Nat.mul Nat.add INR pow].
    rewrite V1, V2, Rabs_R1, (Rabs_pos_eq 2) by lra. unfold Rdiv. fold eta.
    assert (eta <= 1). { rewrite <- eta_bpow. assert (bp (-149) <= bp 0) by (apply bpow_le; lia). change (bp 0) with 1 in H. lra. }
    lra.
  - intros x Hx. unfold a, v in Hx. cbn in Hx. decompose [or] Hx; subst; try reflexivity; contradiction.
  - intros [|[|j]] Hj; [| |lia]; unfold mcells, a; cbn [nth Nat.mul Nat.add Nat.eqb]; [exact V0|exact V1].
Qed.
