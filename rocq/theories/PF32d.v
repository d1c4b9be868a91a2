(** C122 and C123: normalize() of a float vector, where 1.0 / len is computed in
    double and rounded to float. *)
From Coq Require Import ZArith Reals Lra Psatz Bool.
From Flocq Require Import Core.Core IEEE754.BinarySingleNaN IEEE754.Binary IEEE754.Bits.
From Verif Require Import InstF InstF32 MFloat LVector LMatrix Spec LSum PF32 LF32 PF32b Spec10f LExt32 LF32d.
Local Open Scope R_scope.
Local Existing Instance F32Scalar.

(** C123: storing 1.0 / x in a float (vector normalize(), quaternion operator/,
    plane normalization) rounds twice, to double and then to float, but the
    result is the correctly rounded float quotient, for every x including zeros,
    infinities, NaN and subnormal numbers. *)
Theorem C123_reciprocal_rounds_once :
  forall x : f32, same (recip_via_double x) (b32_div mode_NE f32_one x).
Proof. exact recip_same. Qed.
Print Assumptions C123_reciprocal_rounds_once.
(** Widening a float to double changes nothing. *)
Theorem C123_widening_is_exact :
  forall x : f32,
  (fin x -> is_finite 53 1024 (f64_of_f32 x) = true /\ B2R 53 1024 (f64_of_f32 x) = val x) /\
  same (f32_of_f64 (f64_of_f32 x)) x.
Proof.
  intros x. split; [intros F; destruct (widen x F) as (A & B & _); split; assumption|].
  destruct (is_finite 24 128 x) eqn:F.
  - destruct (widen x F) as (A & B & C). destruct (narrow _ A) as (D & E & G). rewrite B in D. apply same_of_value.
    + rewrite D, (value_fin x F). unfold rnx. rewrite round_generic; [|apply valid_rnd_N|apply (generic_format_B2R 24 128)].
      rewrite Rlt_bool_true by apply (abs_B2R_lt_emax 24 128). reflexivity.
    + intros _. rewrite G. exact C.
  - destruct x as [s|s|s p0 H0|s m e H]; try discriminate F; [left; reflexivity|right; split; reflexivity].
Qed.
Print Assumptions C123_widening_is_exact.

Lemma mul_s_same (cfg : Cfg) n v (s t : f32) : length v = n -> same s t ->
  exists v' w' f g, vec_mul_assign_s n v s = Ok v' /\ vec_mul_assign_s n v t = Ok w' /\ repV n v' f /\ repV n w' g /\
    (forall i, (i < n)%nat -> same (f i) (g i)) /\ (forall i, (i < n)%nat -> f i = b32_mult mode_NE (nth i v f32_zero) s).
Proof.
  intros L S. pose proof (repV_nth n v f32_zero L) as Hv. unfold vec_mul_assign_s.
  destruct (vec_map_assign_spec (T := f32) n (fun x : f32 => Ok (smul x s)) v _ (fun i => b32_mult mode_NE (nth i v f32_zero) s) Hv) as (v' & E & H); [intros; reflexivity|].
  destruct (vec_map_assign_spec (T := f32) n (fun x : f32 => Ok (smul x t)) v _ (fun i => b32_mult mode_NE (nth i v f32_zero) t) Hv) as (w' & E' & H'); [intros; reflexivity|].
  exists v', w'. do 2 eexists. split; [exact E|]. split; [exact E'|]. split; [exact H|]. split; [exact H'|].
  split; [|intros; reflexivity]. intros i Hi. cbv beta. apply same_mult; [apply same_refl|exact S].
Qed.

(** C123: so normalize() of a float vector gives what float arithmetic alone
    would give, bit for bit. *)
Theorem C123_normalize_as_in_float :
  forall (cfg : Cfg) (n : nat) (v : list f32), length v = n ->
  exists r v' w' f g, vecf_normalize n v = Ok (r, v') /\ vec_normalize n v = Ok (r, w') /\ repV n v' f /\ repV n w' g /\
    forall i, (i < n)%nat -> same (f i) (g i).
Proof.
  intros cfg n v L. pose proof (repV_nth n v f32_zero L) as Hv. unfold vecf_normalize, vec_normalize.
  assert (EL : exists r, vec_length n v = Ok r).
  { unfold vec_length. rewrite (vec_squared_length_spec n v _ Hv). cbn [bind ssqrt F32Scalar]. eauto. }
  destruct EL as (r & ->). cbn [bind]. cbn [seqb szero sone F32Scalar]. destruct (Beqb32 r f32_zero).
  - exists f32_zero, v, v. do 2 eexists. split; [reflexivity|]. split; [reflexivity|]. split; [exact Hv|]. split; [exact Hv|]. intros; apply same_refl.
  - cbn [sdiv F32Scalar bind]. destruct (mul_s_same cfg n v _ _ L (recip_same r)) as (v' & w' & f & g & E1 & E2 & R1 & R2 & S & _). rewrite E1, E2. cbn [bind].
    exists r, v', w', f, g. repeat (split; [first [reflexivity|assumption]|]). exact S.
Qed.
Print Assumptions C123_normalize_as_in_float.

Lemma same_val x y : same x y -> fin y -> fin x /\ val x = val y.
Proof.
  intros [->|(A & B)] F; [split; [exact F|reflexivity]|]. exfalso. destruct y; discriminate.
Qed.
(** C122: normalize() of a float vector.  Components of at most 2^50 and a
    length of at least 2^-50. *)
Theorem C122_float_normalize_error :
  forall (cfg : Cfg) (n : nat) (v : list f32) (a : nat -> f32),
  repV n v a -> (Z.of_nat n <= 2 ^ 10)%Z ->
  (forall i, (i < n)%nat -> fin (a i) /\ Rabs (val (a i)) <= 2 ^ 50) ->
  / 2 ^ 50 <= lenR n (fun i => val (a i)) ->
  exists r v' c, vecf_normalize n v = Ok (r, v') /\ vec_length n v = Ok r /\ repV n v' c /\
    (forall i, (i < n)%nat -> fin (c i) /\
       Rabs (val (c i) - val (a i) / lenR n (fun i => val (a i))) <=
         (INR n + 3) / 2 ^ 23 * Rabs (val (a i) / lenR n (fun i => val (a i))) + / 2 ^ 150) /\
    Rabs (lenR n (fun i => val (c i)) - 1) <= (INR n + 4) / 2 ^ 23.
Proof.
  intros cfg n v a Hv Hn Ha HL. destruct (normalize_error cfg n v a Hv Hn Ha HL) as (r & w' & g & E & EL & Hg & C & D).
  destruct (C123_normalize_as_in_float cfg n v (proj1 Hv)) as (r' & v' & w2 & f & g2 & E1 & E2 & R1 & R2 & S).
  rewrite E in E2. injection E2 as <- <-. exists r, v', f. split; [exact E1|]. split; [exact EL|]. split; [exact R1|].
  assert (G : forall i, (i < n)%nat -> fin (f i) /\ val (f i) = val (g i)).
  { intros i Hi. assert (g i = g2 i) as X. { pose proof (proj2 Hg i Hi) as A1. pose proof (proj2 R2 i Hi) as A2. congruence. }
    apply same_val; [rewrite X; apply S, Hi|apply C, Hi]. }
  split.
  - intros i Hi. destruct (G i Hi) as (G1 & ->). split; [exact G1|]. apply C, Hi.
  - rewrite (lenR_ext n _ (fun i => val (g i))) by (intros i Hi; apply G, Hi). exact D.
Qed.
Print Assumptions C122_float_normalize_error.

(** Concrete: 1.0 / 3 in float is 0x3EAAAAAB either way, and (3, 4) is
    normalized to (0.6f, 0.8f). *)
Example C123_hypotheses_met :
  bits_of_b32 (recip_via_double (b32_of_bits 0x40400000)) = 0x3EAAAAAB%Z /\
  bits_of_b32 (recip_via_double (b32_of_bits 0x00000001)) = 0x7F800000%Z /\
  bits_of_b32 (recip_via_double (b32_of_bits 0x80000000)) = 0xFF800000%Z.
Proof. vm_compute. repeat split; reflexivity. Qed.
