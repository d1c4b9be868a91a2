(** Property C152: the low-pass filter in double and float, for every history. *)
From Coq Require Import ZArith Reals Lra Psatz.
From Flocq Require Import Core.Core IEEE754.BinarySingleNaN IEEE754.Binary IEEE754.Bits.
From Verif Require Import InstF InstF32 LF64 LVector MFloat MFilter Spec LSum PMisc.
From Verif Require LF32d LExprF PF32 LF32 LExt32 Spec10f.
From Verif Require Import PFloat LFloat LErr PFloat2 LSum.
Local Open Scope R_scope.
Local Open Scope list_scope.
Local Notation bp := (bpow radix2).

(** ** Histories *)
(** What can happen to a filter with values of type V. *)
Inductive ft_event (V : Type) := Added (x : V) | FactorSet (f : f32).
Arguments Added {V} x.
Arguments FactorSet {V} f.
(** The factor in force and the values added so far, newest first. *)
Fixpoint ft_factor_after {V} (f : f32) (h : list (ft_event V)) : f32 :=
  match h with [] => f | Added _ :: h => ft_factor_after f h | FactorSet g :: h => ft_factor_after g h end.
Fixpoint ft_added {V} (h : list (ft_event V)) : list V :=
  match h with [] => [] | Added x :: h => ft_added h ++ [x] | FactorSet _ :: h => ft_added h end.
(** Running a history. *)
Fixpoint ft_run {V} (blend : V -> V -> f64 -> res V) (M : nat) (s : lpfilter V) (h : list (ft_event V)) : res (lpfilter V) :=
  match h with
  | [] => Ok s
  | Added x :: h => '(s, _) <- ft_add blend M s x ;; ft_run blend M s h
  | FactorSet f :: h => ft_run blend M (ft_set_smooth_factor s f) h
  end.
(** The exact blend of the values [l], newest first, with factor [f]: each value
    with its weight of C77. *)
Definition exact_blend (f : R) (l : list R) : R := rsum (length l) (fun j => lp_weight f (length l) j * nth j l 0).

Section Gen.
Context {V : Type} (blend : V -> V -> f64 -> res V) (okV : V -> Prop).
Context (BL : forall v x w, okV v -> okV x -> exists r, blend v x w = Ok r /\ okV r).

Lemma ft_trim_firstn M (l : list V) : ft_trim (length l) M l = firstn M l.
Proof.
  assert (G : forall fuel (l : list V), (length l <= fuel)%nat -> ft_trim fuel M l = firstn M l).
  { induction fuel as [|fuel IH]; intros d Hd; cbn [ft_trim].
    - destruct d; [|cbn in Hd; lia]. rewrite firstn_nil. reflexivity.
    - destruct (Nat.ltb_spec M (length d)) as [H|H].
      + assert (E : d <> []) by (intros ->; cbn in H; lia).
        destruct (exists_last E) as (d' & x & ->). rewrite removelast_last. rewrite app_length in *. cbn [length] in *.
        rewrite IH by lia. rewrite firstn_app. replace (M - length d')%nat with 0%nat by lia. rewrite firstn_O, app_nil_r. reflexivity.
      + rewrite firstn_all2 by lia. reflexivity. }
  apply G; lia.
Qed.
Lemma ft_loop_ok f : forall l w v, okV v -> Forall okV l -> exists r, ft_loop blend f w v l = Ok r /\ okV r.
Proof.
  induction l as [|x l IH]; intros w v Hv Hl; cbn [ft_loop]; [exists v; auto|].
  inversion Hl as [|? ? Hx Hl']; subst. destruct (BL v x w Hv Hx) as (r & E & Hr). rewrite E. cbn [bind]. apply IH; assumption.
Qed.
Lemma Forall_firstn {A} (P : A -> Prop) n l : Forall P l -> Forall P (firstn n l).
Proof. intros H. apply Forall_forall. intros x Hx. rewrite Forall_forall in H. apply H. rewrite <- (firstn_skipn n l). apply in_or_app. left. exact Hx. Qed.
Lemma ft_add_eq M s x : (0 < M)%nat -> okV x -> Forall okV (ft_data s) -> exists r,
  ft_loop blend (ft_factor s) (f64_of_f32 (ft_factor s)) x (firstn (M - 1) (ft_data s)) = Ok r /\ okV r /\
  ft_add blend M s x = Ok ({| ft_data := firstn M (x :: ft_data s); ft_factor := ft_factor s; ft_value := r |}, r).
Proof.
  intros HM Hx Hd. destruct (ft_loop_ok (ft_factor s) (firstn (M - 1) (ft_data s)) (f64_of_f32 (ft_factor s)) x Hx (Forall_firstn _ _ _ Hd)) as (r & E & Hr).
  exists r. split; [exact E|]. split; [exact Hr|]. unfold ft_add. rewrite ft_trim_firstn.
  destruct M as [|M]; [lia|]. cbn [firstn]. rewrite Nat.sub_succ, Nat.sub_0_r in E. rewrite E. reflexivity.
Qed.
Lemma ft_run_state M h : (0 < M)%nat -> Forall okV (ft_added h) -> forall s l, ft_data s = firstn M l -> Forall okV l ->
  exists s', ft_run blend M s h = Ok s' /\ ft_data s' = firstn M (ft_added h ++ l) /\ ft_factor s' = ft_factor_after (ft_factor s) h.
Proof.
  intros HM. induction h as [|[x|f] h IH]; intros HF s l Hs Hl; cbn [ft_run ft_added ft_factor_after] in *.
  - exists s. auto.
  - apply Forall_app in HF as (HF & HX). inversion HX as [|? ? Hx _]; subst.
    destruct (ft_add_eq M s x HM Hx ltac:(rewrite Hs; apply Forall_firstn, Hl)) as (r & _ & _ & ->). cbn [bind].
    destruct (IH HF {| ft_data := firstn M (x :: ft_data s); ft_factor := ft_factor s; ft_value := r |} (x :: l)) as (s' & E & D & F).
    + cbn [ft_data]. rewrite Hs. apply firstn_cons_firstn.
    + constructor; assumption.
    + exists s'. split; [exact E|]. rewrite <- app_assoc. split; [exact D|exact F].
  - destruct (IH HF (ft_set_smooth_factor s f) l Hs Hl) as (s' & E & D & F). exists s'. auto.
Qed.
(** After any history: what the next call of add() computes. *)
Lemma ft_after M f0 v0 h x : (0 < M)%nat -> Forall okV (ft_added h) -> okV x ->
  exists s s' v, ft_run blend M (ft_make f0 v0) h = Ok s /\ ft_add blend M s x = Ok (s', v) /\ ft_get s' = v /\ okV v /\
  ft_loop blend (ft_factor_after f0 h) (f64_of_f32 (ft_factor_after f0 h)) x (firstn (M - 1) (ft_added h)) = Ok v.
Proof.
  intros HM HF Hx. destruct (ft_run_state M h HM HF (ft_make f0 v0) []) as (s & E & D & F); [cbn; rewrite firstn_nil; reflexivity|constructor|].
  rewrite app_nil_r in D. cbn [ft_factor ft_make] in F.
  destruct (ft_add_eq M s x HM Hx ltac:(rewrite D; apply Forall_firstn, HF)) as (r & L & Hr & A).
  exists s. eexists. exists r. split; [exact E|]. split; [exact A|]. split; [reflexivity|]. split; [exact Hr|].
  rewrite <- F. rewrite D in L. rewrite firstn_firstn, Nat.min_l in L by lia. exact L.
Qed.
End Gen.

(** ** The rounding errors of one component *)
#[local] Instance one_lim : RLim := {| rmax := 1; reps := 1; rmax_pos := Rlt_0_1; reps_pos := Rlt_0_1 |}.
Section Comp.
Context {A : Type} (b1 : A -> A -> f64 -> A) (va : A -> R) (fa : A -> Prop) (B eps : R) (f : f32).
Fixpoint loop1 (weight : f64) (value : A) (rest : list A) : A :=
  match rest with [] => value | x :: rest => loop1 (b64_mult mode_NE weight (f64_of_f32 f)) (b1 value x weight) rest end.
Context (BP : 0 < B) (EP : 0 <= eps).
Context (STEP : forall v x w, fa v -> fa x -> fin w -> 0 <= val w <= 1 -> Rabs (va v) <= 2 * B -> Rabs (va x) <= B ->
  fa (b1 v x w) /\ Rabs (va (b1 v x w) - (va v * (1 - val w) + va x * val w)) <= eps).
Let F := PF32.val f.
Context (FF : PF32.fin f) (FB : 0 <= F <= 1).
Lemma w_step (w : f64) k : fin w -> 0 <= val w <= 1 -> Rabs (val w - F ^ k) <= INR (k - 1) * uro -> (1 <= k)%nat ->
  let w' := b64_mult mode_NE w (f64_of_f32 f) in
  fin w' /\ 0 <= val w' <= 1 /\ Rabs (val w' - F ^ S k) <= INR (S k - 1) * uro.
Proof.
  intros Fw Bw HW Hk w'. destruct (LF32d.widen f FF) as (Ff & Ef & _). change (val (f64_of_f32 f) = F) in Ef. change (fin (f64_of_f32 f)) in Ff.
  set (g := f64_of_f32 f) in *.
  assert (P : 0 <= val w * F <= 1). { split; [apply Rmult_le_pos; lra|]. assert (val w * F <= 1 * 1) by (apply Rmult_le_compat; lra). lra. }
  assert (RB : Rabs (round radix2 (FLT_exp (-1074) 53) (Znearest (fun x => negb (Z.even x))) (val w * val g)) <= bp 0) by (apply rnd_le; [lia|rewrite Ef, Rabs_pos_eq; cbn; lra]).
  destruct (mult_fin w g Fw Ff) as (F1 & E1); [eapply Rle_lt_trans; [exact RB|]; apply bpow_lt; lia|].
  fold w' in F1, E1. rewrite Ef in E1.
  assert (N0 : 0 <= val w').
  { rewrite E1. rewrite <- (round_0 radix2 (FLT_exp (-1074) 53) (Znearest (fun x => negb (Z.even x)))). apply round_le; [apply FLT_exp_valid; reflexivity|apply valid_rnd_N|lra]. }
  assert (N1 : val w' <= 1).
  { rewrite <- Ef in E1. rewrite <- E1 in RB. change (bp 0) with 1 in RB. apply Rabs_le_inv in RB. lra. }
  split; [exact F1|]. split; [lra|].
  assert (ER : Rabs (val w' - val w * F) <= uro).
  { rewrite E1. eapply Rle_trans; [apply error_le_half_ulp; apply FLT_exp_valid; reflexivity|].
    assert (U : ulp radix2 (FLT_exp (-1074) 53) (val w * F) <= bp (-52)).
    { apply Rle_trans with (ulp radix2 (FLT_exp (-1074) 53) 1).
      - apply ulp_le; [apply FLT_exp_valid; reflexivity|apply FLT_exp_monotone|]. rewrite Rabs_R1, Rabs_pos_eq; lra.
      - change 1 with (bp 0). rewrite ulp_bpow. apply bpow_le. unfold FLT_exp. lia. }
    rewrite uro_val. apply Rle_trans with (/ 2 * bp (-52)); [lra|]. cbn. lra. }
  replace (val w' - F ^ S k) with ((val w' - val w * F) + (val w - F ^ k) * F) by (cbn [pow]; ring).
  eapply Rle_trans; [apply Rabs_triang|]. rewrite Rabs_mult, (Rabs_pos_eq F) by lra.
  replace (S k - 1)%nat with (S (k - 1)) by lia. rewrite S_INR.
  pose proof (Rabs_pos (val w - F ^ k)). assert (Rabs (val w - F ^ k) * F <= Rabs (val w - F ^ k) * 1) by (apply Rmult_le_compat_l; lra). lra.
Qed.
Lemma loop1_err : forall l w v rv k E,
  fa v -> Rabs rv <= B -> Rabs (va v - rv) <= E -> fin w -> 0 <= val w <= 1 -> Rabs (val w - F ^ k) <= INR (k - 1) * uro -> (1 <= k)%nat ->
  (forall x, In x l -> fa x /\ Rabs (va x) <= B) ->
  E + INR (length l) * eps + 3 * uro * B * (INR (length l) * (INR k + INR (length l))) <= B ->
  fa (loop1 w v l) /\
  Rabs (va (loop1 w v l) - lp_blend F (F ^ k) rv (map va l)) <= E + INR (length l) * eps + 3 * uro * B * (INR (length l) * (INR k + INR (length l))).
Proof.
  pose proof uro_pos as UP. assert (UB0 : 0 < uro * B) by (apply Rmult_lt_0_compat; assumption).
  induction l as [|x l IH]; intros w v rv k E Fv Brv HE Fw Bw HW Hk HX HB; cbn [loop1 map lp_blend length] in *.
  - split; [exact Fv|]. cbn [INR]. rewrite !Rmult_0_l, Rmult_0_r, !Rplus_0_r. exact HE.
  - destruct (HX x (or_introl eq_refl)) as (Fx & Bx).
    assert (E0 : 0 <= E) by (pose proof (Rabs_pos (va v - rv)); lra).
    set (n := INR (length l)) in *. assert (EN : INR (S (length l)) = n + 1) by apply S_INR. rewrite EN in HB |- *.
    assert (n0 : 0 <= n) by apply pos_INR. pose proof (pos_INR k) as k0.
    assert (X0 : 0 <= (n + 1) * eps) by (apply Rmult_le_pos; lra).
    assert (X1 : 0 <= 3 * uro * B * ((n + 1) * (INR k + (n + 1)))) by (apply Rmult_le_pos; [lra|apply Rmult_le_pos; lra]).
    assert (Bv : Rabs (va v) <= 2 * B). { replace (va v) with (rv + (va v - rv)) by ring. eapply Rle_trans; [apply Rabs_triang|]. lra. }
    destruct (STEP v x w Fv Fx Fw Bw Bv Bx) as (Fr & Er). destruct (w_step w k Fw Bw HW Hk) as (Fw' & Bw' & HW').
    set (rv' := rv * (1 - F ^ k) + va x * F ^ k).
    assert (PK : 0 <= F ^ k <= 1) by (apply pow_unit; exact FB).
    assert (Brv' : Rabs rv' <= B).
    { unfold rv'. eapply Rle_trans; [apply Rabs_triang|]. rewrite !Rabs_mult, (Rabs_pos_eq (1 - F ^ k)), (Rabs_pos_eq (F ^ k)) by lra.
      assert (Rabs rv * (1 - F ^ k) <= B * (1 - F ^ k)) by (apply Rmult_le_compat_r; lra). assert (Rabs (va x) * F ^ k <= B * F ^ k) by (apply Rmult_le_compat_r; lra). lra. }
    assert (HE' : Rabs (va (b1 v x w) - rv') <= E + eps + 3 * uro * B * INR k).
    { unfold rv'. replace (va (b1 v x w) - (rv * (1 - F ^ k) + va x * F ^ k)) with
        ((va (b1 v x w) - (va v * (1 - val w) + va x * val w)) + ((va v - rv) * (1 - F ^ k) + (va v - va x) * - (val w - F ^ k))) by ring.
      eapply Rle_trans; [apply Rabs_triang|]. rewrite Rplus_comm. replace (E + eps + 3 * uro * B * INR k) with ((E + 3 * B * (INR k * uro)) + eps) by ring. apply Rplus_le_compat; [|exact Er].
      eapply Rle_trans; [apply Rabs_triang|]. rewrite !Rabs_mult, Rabs_Ropp, (Rabs_pos_eq (1 - F ^ k)) by lra.
      apply Rplus_le_compat.
      - pose proof (Rabs_pos (va v - rv)). assert (Rabs (va v - rv) * (1 - F ^ k) <= Rabs (va v - rv) * 1) by (apply Rmult_le_compat_l; lra). lra.
      - apply Rmult_le_compat; try apply Rabs_pos.
        + unfold Rminus. eapply Rle_trans; [apply Rabs_triang|]. rewrite Rabs_Ropp. lra.
        + eapply Rle_trans; [exact HW|]. apply Rmult_le_compat_r; [lra|]. apply le_INR. lia. }
    assert (BD : E + eps + 3 * uro * B * INR k + n * eps + 3 * uro * B * (n * (INR (S k) + n)) <= E + (n + 1) * eps + 3 * uro * B * ((n + 1) * (INR k + (n + 1)))).
    { rewrite S_INR. assert (0 <= uro * B * (n + 1)) by (apply Rmult_le_pos; lra). nra. }
    destruct (IH _ (b1 v x w) rv' (S k) (E + eps + 3 * uro * B * INR k) Fr Brv' HE' Fw' Bw' HW' ltac:(lia) ltac:(intros y Hy; apply HX; right; exact Hy) ltac:(lra)) as (R1 & R2).
    split; [exact R1|]. cbn [sadd smul ssub sone RScalar].
    replace (F ^ k * F) with (F ^ S k) by (cbn [pow]; ring). eapply Rle_trans; [exact R2|exact BD].
Qed.
Lemma loop1_total v l : fa v -> Rabs (va v) <= B -> (forall x, In x l -> fa x /\ Rabs (va x) <= B) -> forall M : nat, (length l < M)%nat ->
  INR M * eps + 3 * uro * B * (INR M * INR M) <= B ->
  fa (loop1 (f64_of_f32 f) v l) /\ Rabs (va (loop1 (f64_of_f32 f) v l) - exact_blend F (map va (v :: l))) <= INR M * eps + 3 * uro * B * (INR M * INR M).
Proof.
  intros Fv Bv HX M HM HB. destruct (LF32d.widen f FF) as (Ff & Ef & _). change (val (f64_of_f32 f) = F) in Ef. change (fin (f64_of_f32 f)) in Ff.
  pose proof uro_pos as UP. set (n := INR (length l)). assert (Hn : n + 1 <= INR M) by (unfold n; rewrite <- S_INR; apply le_INR; lia). assert (n0 : 0 <= n) by apply pos_INR.
  assert (Q : 0 + n * eps + 3 * uro * B * (n * (INR 1 + n)) <= INR M * eps + 3 * uro * B * (INR M * INR M)).
  { change (INR 1) with 1. assert (n * eps <= INR M * eps) by (apply Rmult_le_compat_r; lra). assert (n * (1 + n) <= INR M * INR M) by (apply Rmult_le_compat; lra).
    assert (3 * uro * B * (n * (1 + n)) <= 3 * uro * B * (INR M * INR M)) by (apply Rmult_le_compat_l; [apply Rmult_le_pos; lra|assumption]). lra. }
  destruct (loop1_err l (f64_of_f32 f) v (va v) 1 0 Fv Bv) as (R1 & R2); try assumption.
  - rewrite Rminus_diag_eq, Rabs_R0 by reflexivity. lra.
  - rewrite Ef. exact FB.
  - rewrite Ef, pow_1, Rminus_diag_eq, Rabs_R0 by reflexivity. cbn. lra.
  - lia.
  - fold n. lra.
  - split; [exact R1|]. fold n in R2. rewrite pow_1 in R2. rewrite lp_blend_sum in R2. unfold exact_blend. cbn [map length].
    eapply Rle_trans; [exact R2|exact Q].
Qed.
End Comp.

(** ** One step in each value type *)
Lemma narrow_fin (d : f64) k : fin d -> Rabs (val d) <= bp k -> (-149 <= k < 128)%Z ->
  LExprF.okf32 k (f32_of_f64 d) /\ Rabs (PF32.val (f32_of_f64 d) - val d) <= PF32.uro * Rabs (val d) + PF32.eta.
Proof.
  intros Fd Bd Hk. destruct (LF32d.narrow d Fd) as (N1 & N2 & _).
  pose proof (LF32.rnd_le _ k (proj1 Hk) Bd) as RB. change (B2R 53 1024 d) with (val d) in N1. unfold LExt32.rnx in N1.
  rewrite Rlt_bool_true in N1 by (eapply Rle_lt_trans; [exact RB|]; apply bpow_lt; lia).
  set (r := f32_of_f64 d) in *.
  assert (Fr : PF32.fin r) by (destruct r; try reflexivity; discriminate N1).
  assert (Er : PF32.val r = round radix2 (FLT_exp (-149) 24) (Znearest (fun x => negb (Z.even x))) (val d)).
  { destruct r; try discriminate N1; cbn [Spec10f.value] in N1; injection N1 as N1; exact N1. }
  split; [split; [exact Fr|rewrite Er; exact RB]|]. rewrite Er.
  destruct (PF32.mult_error (val d) 1) as (e & z & He & Hz & E). rewrite Rmult_1_r in E. rewrite E.
  replace (val d * (1 + e) + z - val d) with (e * val d + z) by ring. eapply Rle_trans; [apply Rabs_triang|]. rewrite Rabs_mult.
  apply Rplus_le_compat; [|exact Hz]. apply Rmult_le_compat_r; [apply Rabs_pos|exact He].
Qed.
Lemma step_real (B v x w o p a b r u h eo ep : R) :
  0 < B -> Rabs v <= 2 * B -> Rabs x <= B -> 0 <= w <= 1 -> 0 < u <= / 1000 -> 0 <= h <= u * B / 1000 -> 0 <= eo <= / 1000 -> 0 <= ep <= / 1000 ->
  Rabs (o - (1 - w)) <= eo -> Rabs (p - w) <= ep ->
  Rabs (a - v * o) <= u * Rabs (v * o) + h -> Rabs (b - x * p) <= u * Rabs (x * p) + h -> Rabs (r - (a + b)) <= u * Rabs (a + b) ->
  Rabs (r - (v * (1 - w) + x * w)) <= (7 * u + 2 * eo + ep) * B.
Proof.
  intros BP Bv Bx Bw Hu Hh Heo Hep Ho Hp Ha Hb Hr.
  assert (O1 : Rabs o <= 1001 / 1000). { replace o with ((1 - w) + (o - (1 - w))) by ring. eapply Rle_trans; [apply Rabs_triang|]. rewrite (Rabs_pos_eq (1 - w)) by lra. lra. }
  assert (P1 : Rabs p <= 1001 / 1000). { replace p with (w + (p - w)) by ring. eapply Rle_trans; [apply Rabs_triang|]. rewrite (Rabs_pos_eq w) by lra. lra. }
  assert (VO : Rabs (v * o) <= 2 * B * (1001 / 1000)) by (rewrite Rabs_mult; apply Rmult_le_compat; try apply Rabs_pos; assumption).
  assert (XP : Rabs (x * p) <= B * (1001 / 1000)) by (rewrite Rabs_mult; apply Rmult_le_compat; try apply Rabs_pos; assumption).
  assert (UV : u * Rabs (v * o) <= u * (2 * B * (1001 / 1000))) by (apply Rmult_le_compat_l; lra).
  assert (UX : u * Rabs (x * p) <= u * (B * (1001 / 1000))) by (apply Rmult_le_compat_l; lra).
  assert (UB : 0 < u * B) by (apply Rmult_lt_0_compat; lra). assert (UB2 : u * B <= / 1000 * B) by (apply Rmult_le_compat_r; lra).
  assert (A1 : Rabs a <= 201 / 100 * B). { replace a with (v * o + (a - v * o)) by ring. eapply Rle_trans; [apply Rabs_triang|]. lra. }
  assert (B1 : Rabs b <= 101 / 100 * B). { replace b with (x * p + (b - x * p)) by ring. eapply Rle_trans; [apply Rabs_triang|]. lra. }
  assert (AB : u * Rabs (a + b) <= u * (302 / 100 * B)). { apply Rmult_le_compat_l; [lra|]. eapply Rle_trans; [apply Rabs_triang|]. lra. }
  replace (r - (v * (1 - w) + x * w)) with ((r - (a + b)) + ((a - v * o) + ((b - x * p) + (v * (o - (1 - w)) + x * (p - w))))) by ring.
  eapply Rle_trans; [apply Rabs_triang|]. 
  assert (Q1 : Rabs (v * (o - (1 - w))) <= 2 * B * eo) by (rewrite Rabs_mult; apply Rmult_le_compat; try apply Rabs_pos; assumption).
  assert (Q2 : Rabs (x * (p - w)) <= B * ep) by (rewrite Rabs_mult; apply Rmult_le_compat; try apply Rabs_pos; assumption).
  pose proof (Rabs_triang (a - v * o) ((b - x * p) + (v * (o - (1 - w)) + x * (p - w)))) as T1.
  pose proof (Rabs_triang (b - x * p) (v * (o - (1 - w)) + x * (p - w))) as T2.
  pose proof (Rabs_triang (v * (o - (1 - w))) (x * (p - w))) as T3. lra.
Qed.
Definition bd (v x w : f64) : f64 := b64_plus mode_NE (b64_mult mode_NE v (b64_minus mode_NE f64_one w)) (b64_mult mode_NE x w).
Definition bf (v x : f32) (w : f64) : f32 := f32_of_f64 (bd (f64_of_f32 v) (f64_of_f32 x) w).
Definition bvf (v x : f32) (w : f64) : f32 :=
  b32_plus mode_NE (b32_mult mode_NE v (f32_of_f64 (b64_minus mode_NE f64_one w))) (b32_mult mode_NE x (f32_of_f64 w)).
Lemma one_minus (w : f64) : fin w -> 0 <= val w <= 1 ->
  okf 0 w /\ okf 1 (b64_minus mode_NE f64_one w) /\ Rabs (val (b64_minus mode_NE f64_one w) - (1 - val w)) <= uro.
Proof.
  intros Fw Bw. assert (W0 : okf 0 w) by (split; [exact Fw|rewrite Rabs_pos_eq by lra; cbn; lra]). split; [exact W0|].
  assert (O0 : okf 0 f64_one) by (split; [reflexivity|rewrite val_one, Rabs_R1; cbn; lra]).
  destruct (okf_minus 0 1 f64_one w O0 W0 eq_refl ltac:(lia)) as (H1 & H2). split; [exact H1|]. rewrite val_one in H2. eapply Rle_trans; [exact H2|].
  rewrite Rabs_pos_eq by lra. pose proof uro_pos. assert (uro * (1 - val w) <= uro * 1) by (apply Rmult_le_compat_l; lra). lra.
Qed.
Lemma step_double B i v x w : bp (-900) <= B -> 2 * B <= bp i -> (-500 <= i <= 1010)%Z ->
  fin v -> fin x -> fin w -> 0 <= val w <= 1 -> Rabs (val v) <= 2 * B -> Rabs (val x) <= B ->
  fin (bd v x w) /\ Rabs (val (bd v x w) - (val v * (1 - val w) + val x * val w)) <= 10 * uro * B.
Proof.
  intros B1 B2 Hi Fv Fx Fw Bw Bv Bx. destruct (one_minus w Fw Bw) as (Kw & Ko & Eo).
  assert (Bp : 0 < B) by (pose proof (bpow_gt_0 radix2 (-900)); lra).
  assert (Kv : okf i v) by (split; [exact Fv|lra]). assert (Kx : okf i x) by (split; [exact Fx|lra]).
  set (o := b64_minus mode_NE f64_one w) in *.
  destruct (okf_mult i 1 (i + 1) v o Kv Ko eq_refl ltac:(lia)) as (Ka & Ea). destruct (okf_mult i 0 i x w Kx Kw ltac:(lia) ltac:(lia)) as (Kb & Eb).
  destruct (okf_plus (i + 1) (i + 2) _ _ Ka (okf_le _ (i + 1) _ Kb ltac:(lia)) ltac:(lia) ltac:(lia)) as (Kr & Er).
  split; [apply Kr|]. pose proof uro_pos as UP. pose proof uro_val as UV. pose proof eta_pos as EP.
  assert (EH : eta <= uro * B / 1000).
  { apply Rle_trans with (bp (-53) * bp (-900) * bp (-10)).
    - rewrite <- eta_bpow. change (/ 2) with (bp (-1)). rewrite <- !bpow_plus. apply bpow_le. lia.
    - replace (bp (-53)) with uro by (rewrite UV; cbn; lra). apply Rle_trans with (uro * B * bp (-10)).
      + apply Rmult_le_compat_r; [apply bpow_ge_0|]. apply Rmult_le_compat_l; lra.
      + unfold Rdiv. apply Rmult_le_compat_l; [apply Rmult_le_pos; lra|]. cbn. lra. }
  eapply Rle_trans; [apply (step_real B (val v) (val x) (val w) (val o) (val w) (val (b64_mult mode_NE v o)) (val (b64_mult mode_NE x w)) _ uro eta uro 0 Bp Bv Bx Bw); try eassumption; try lra|].
  - rewrite (Rminus_diag_eq (val w)), Rabs_R0 by reflexivity. lra.
  - assert (0 < uro * B) by (apply Rmult_lt_0_compat; lra). lra.
Qed.
Lemma u32_val : PF32.uro = / 16777216.
Proof. unfold PF32.uro. f_equal. lra. Qed.
Lemma eta32_small B : bp (-100) <= B -> PF32.eta <= PF32.uro * B / 1000.
Proof.
  intros HB. apply Rle_trans with (bp (-24) * bp (-100) * bp (-10)).
  - rewrite <- PF32.eta_bpow. change (/ 2) with (bp (-1)). rewrite <- !bpow_plus. apply bpow_le. lia.
  - rewrite u32_val. replace (bp (-24)) with (/ 16777216) by (cbn; lra). apply Rle_trans with (/ 16777216 * B * bp (-10)).
    + apply Rmult_le_compat_r; [apply bpow_ge_0|]. apply Rmult_le_compat_l; lra.
    + pose proof (bpow_gt_0 radix2 (-100)). unfold Rdiv. apply Rmult_le_compat_l; [lra|]. cbn. lra.
Qed.
Lemma step_float B v x w : bp (-100) <= B <= bp 100 ->
  PF32.fin v -> PF32.fin x -> fin w -> 0 <= val w <= 1 -> Rabs (PF32.val v) <= 2 * B -> Rabs (PF32.val x) <= B ->
  PF32.fin (bf v x w) /\ Rabs (PF32.val (bf v x w) - (PF32.val v * (1 - val w) + PF32.val x * val w)) <= 3 * PF32.uro * B.
Proof.
  intros HB Fv Fx Fw Bw Bv Bx. destruct (LF32d.widen v Fv) as (Fv' & Ev & _). destruct (LF32d.widen x Fx) as (Fx' & Ex & _).
  assert (B900 : bp (-900) <= bp (-100)) by (apply bpow_le; lia). assert (B101 : bp 101 = 2 * bp 100) by (change 101%Z with (1 + 100)%Z; rewrite bpow_plus; reflexivity).
  assert (B102 : bp 103 = 8 * bp 100) by (change 103%Z with (3 + 100)%Z; rewrite bpow_plus; reflexivity). pose proof (bpow_gt_0 radix2 (-100)) as P100.
  change (val (f64_of_f32 v) = PF32.val v) in Ev. change (val (f64_of_f32 x) = PF32.val x) in Ex.
  destruct (step_double B 101 (f64_of_f32 v) (f64_of_f32 x) w ltac:(lra) ltac:(lra) ltac:(lia) Fv' Fx' Fw Bw ltac:(rewrite Ev; exact Bv) ltac:(rewrite Ex; exact Bx)) as (Fr & Er).
  rewrite Ev, Ex in Er. unfold bf. set (d := bd (f64_of_f32 v) (f64_of_f32 x) w) in *. set (T := PF32.val v * (1 - val w) + PF32.val x * val w) in *.
  pose proof uro_val as UV. pose proof u32_val as UV32.
  assert (BT : Rabs T <= 2 * B).
  { unfold T. eapply Rle_trans; [apply Rabs_triang|]. rewrite !Rabs_mult, (Rabs_pos_eq (1 - val w)), (Rabs_pos_eq (val w)) by lra.
    assert (Rabs (PF32.val v) * (1 - val w) <= 2 * B * (1 - val w)) by (apply Rmult_le_compat_r; lra). assert (Rabs (PF32.val x) * val w <= B * val w) by (apply Rmult_le_compat_r; lra).
    assert (0 <= B * val w) by (apply Rmult_le_pos; lra). lra. }
  assert (Bd : Rabs (val d) <= 201 / 100 * B). { replace (val d) with (T + (val d - T)) by ring. eapply Rle_trans; [apply Rabs_triang|]. rewrite UV in Er. lra. }
  destruct (narrow_fin d 103 Fr ltac:(lra) ltac:(lia)) as ((F1 & _) & E1). split; [exact F1|].
  replace (PF32.val (f32_of_f64 d) - T) with ((PF32.val (f32_of_f64 d) - val d) + (val d - T)) by ring. eapply Rle_trans; [apply Rabs_triang|].
  pose proof (eta32_small B ltac:(lra)) as EH. rewrite UV in Er. rewrite UV32 in *. lra.
Qed.
Lemma step_vec_float B v x w : bp (-100) <= B <= bp 100 ->
  PF32.fin v -> PF32.fin x -> fin w -> 0 <= val w <= 1 -> Rabs (PF32.val v) <= 2 * B -> Rabs (PF32.val x) <= B ->
  PF32.fin (bvf v x w) /\ Rabs (PF32.val (bvf v x w) - (PF32.val v * (1 - val w) + PF32.val x * val w)) <= 11 * PF32.uro * B.
Proof.
  intros HB Fv Fx Fw Bw Bv Bx. destruct (one_minus w Fw Bw) as (Kw & Ko & Eo). set (o := b64_minus mode_NE f64_one w) in *.
  destruct Kw as (_ & Kw). destruct Ko as (Fo & Ko).
  destruct (narrow_fin o 1 Fo Ko ltac:(lia)) as (Ko' & Eo'). destruct (narrow_fin w 0 Fw Kw ltac:(lia)) as (Kw' & Ew').
  assert (B101 : bp 101 = 2 * bp 100) by (change 101%Z with (1 + 100)%Z; rewrite bpow_plus; reflexivity). pose proof (bpow_gt_0 radix2 (-100)) as P100.
  assert (Kv : LExprF.okf32 101 v) by (split; [exact Fv|lra]). assert (Kx : LExprF.okf32 101 x) by (split; [exact Fx|lra]).
  unfold bvf. fold o. set (o' := f32_of_f64 o) in *. set (w' := f32_of_f64 w) in *.
  destruct (LExprF.okf32_mult 101 1 v o' Kv Ko' ltac:(lia)) as (Ka & Ea). destruct (LExprF.okf32_mult 101 0 x w' Kx Kw' ltac:(lia)) as (Kb & Eb).
  destruct (LExprF.okf32_plus 102 _ _ Ka (LExprF.okf32_le _ 102 _ Kb ltac:(lia)) ltac:(lia)) as (Kr & Er). split; [apply Kr|].
  pose proof uro_val as UV. pose proof u32_val as UV32. pose proof PF32.eta_pos as EP. pose proof (eta32_small B ltac:(lra)) as EH.
  assert (EH1 : PF32.eta <= PF32.uro / 1000). { pose proof (eta32_small 1) as X. rewrite Rmult_1_r in X. apply X. change 1 with (bp 0). apply bpow_le; lia. }
  assert (OB : Rabs (val o) <= 1001 / 1000). { replace (val o) with ((1 - val w) + (val o - (1 - val w))) by ring. eapply Rle_trans; [apply Rabs_triang|]. rewrite (Rabs_pos_eq (1 - val w)) by lra. rewrite UV in Eo. lra. }
  assert (EO : Rabs (PF32.val o' - (1 - val w)) <= 101 / 100 * PF32.uro).
  { replace (PF32.val o' - (1 - val w)) with ((PF32.val o' - val o) + (val o - (1 - val w))) by ring. eapply Rle_trans; [apply Rabs_triang|]. rewrite UV in Eo. rewrite UV32 in *. lra. }
  assert (EW : Rabs (PF32.val w' - val w) <= 101 / 100 * PF32.uro).
  { eapply Rle_trans; [exact Ew'|]. rewrite (Rabs_pos_eq (val w)) by lra. rewrite UV32 in *. lra. }
  eapply Rle_trans; [apply (step_real B (PF32.val v) (PF32.val x) (val w) (PF32.val o') (PF32.val w') (PF32.val (b32_mult mode_NE v o')) (PF32.val (b32_mult mode_NE x w')) _ PF32.uro PF32.eta (101 / 100 * PF32.uro) (101 / 100 * PF32.uro)); try eassumption; try lra; rewrite UV32; lra|].
  rewrite UV32. lra.
Qed.

(** ** Vectors component by component *)
Section VecD.
Context {cfg : Cfg} (n : nat).
Local Existing Instance F64Scalar.
Lemma blend_vec_double_spec (v x : list f64) w : length v = n -> length x = n ->
  exists r, blend_vec_double n v x w = Ok r /\ length r = n /\ forall i, (i < n)%nat -> nth i r f64_zero = bd (nth i v f64_zero) (nth i x f64_zero) w.
Proof.
  intros Lv Lx. pose proof (repV_nth n v f64_zero Lv) as Hv. pose proof (repV_nth n x f64_zero Lx) as Hx. unfold blend_vec_double, vec_mul_s, vec_add.
  destruct (vec_map_spec (T := f64) n (fun a : f64 => Ok (smul a (b64_minus mode_NE f64_one w))) v _ (fun i => b64_mult mode_NE (nth i v f64_zero) (b64_minus mode_NE f64_one w)) Hv) as (a & -> & Ha); [reflexivity|]. cbn [bind].
  destruct (vec_map_spec (T := f64) n (fun a : f64 => Ok (smul a w)) x _ (fun i => b64_mult mode_NE (nth i x f64_zero) w) Hx) as (b & -> & Hb); [reflexivity|]. cbn [bind].
  destruct (vec_zip_spec (T := f64) n (fun a b : f64 => Ok (sadd a b)) a b _ _ (fun i => bd (nth i v f64_zero) (nth i x f64_zero) w) Ha Hb) as (r & -> & Hr); [reflexivity|].
  exists r. split; [reflexivity|]. split; [apply Hr|]. intros i Hi. apply (nth_error_nth r i f64_zero). apply Hr. exact Hi.
Qed.
End VecD.
Section VecF.
Context {cfg : Cfg} (n : nat).
Local Existing Instance F32Scalar.
Lemma blend_vec_float_spec (v x : list f32) w : length v = n -> length x = n ->
  exists r, blend_vec_float n v x w = Ok r /\ length r = n /\ forall i, (i < n)%nat -> nth i r f32_zero = bvf (nth i v f32_zero) (nth i x f32_zero) w.
Proof.
  intros Lv Lx. pose proof (repV_nth n v f32_zero Lv) as Hv. pose proof (repV_nth n x f32_zero Lx) as Hx. unfold blend_vec_float, vec_mul_s, vec_add.
  destruct (vec_map_spec (T := f32) n (fun a : f32 => Ok (smul a (f32_of_f64 (b64_minus mode_NE f64_one w)))) v _ (fun i => b32_mult mode_NE (nth i v f32_zero) (f32_of_f64 (b64_minus mode_NE f64_one w))) Hv) as (a & -> & Ha); [reflexivity|]. cbn [bind].
  destruct (vec_map_spec (T := f32) n (fun a : f32 => Ok (smul a (f32_of_f64 w))) x _ (fun i => b32_mult mode_NE (nth i x f32_zero) (f32_of_f64 w)) Hx) as (b & -> & Hb); [reflexivity|]. cbn [bind].
  destruct (vec_zip_spec (T := f32) n (fun a b : f32 => Ok (sadd a b)) a b _ _ (fun i => bvf (nth i v f32_zero) (nth i x f32_zero) w) Ha Hb) as (r & -> & Hr); [reflexivity|].
  exists r. split; [reflexivity|]. split; [apply Hr|]. intros i Hi. apply (nth_error_nth r i f32_zero). apply Hr. exact Hi.
Qed.
End VecF.
(** A blend that works on components gives a loop that does. *)
Lemma loop_comp {A} (d0 : A) (n : nat) (blend : list A -> list A -> f64 -> res (list A)) (b1 : A -> A -> f64 -> A) (f : f32) i :
  (forall v x w, length v = n -> length x = n -> exists r, blend v x w = Ok r /\ length r = n /\ nth i r d0 = b1 (nth i v d0) (nth i x d0) w) ->
  forall l w v, length v = n -> (forall x, In x l -> length x = n) ->
  exists r, ft_loop blend f w v l = Ok r /\ nth i r d0 = loop1 b1 f w (nth i v d0) (map (fun x => nth i x d0) l).
Proof.
  intros HB. induction l as [|x l IH]; intros w v Hv Hl; cbn [ft_loop loop1 map].
  - exists v. auto.
  - destruct (HB v x w Hv (Hl x (or_introl eq_refl))) as (r & -> & Lr & Er). cbn [bind]. rewrite <- Er. apply IH; [exact Lr|]. intros y Hy. apply Hl. right. exact Hy.
Qed.

(** ** The theorems *)
Lemma window {V} M (x : V) l : (0 < M)%nat -> firstn M (x :: l) = x :: firstn (M - 1) l.
Proof. destruct M as [|M]; [lia|]. intros _. rewrite firstn_cons, Nat.sub_succ, Nat.sub_0_r. reflexivity. Qed.
Lemma window_len {V} M (l : list V) : (0 < M)%nat -> (length (firstn (M - 1) l) < M)%nat.
Proof. intros H. rewrite firstn_length. lia. Qed.
Lemma M_bound M : (Z.of_nat M <= 2 ^ 20)%Z -> 0 <= INR M <= 1048576 /\ 0 <= INR M * INR M <= 1048576 * 1048576.
Proof. intros H. pose proof (INR_bound M H) as B. split; [exact B|]. split; [apply Rmult_le_pos; lra|]. apply Rmult_le_compat; lra. Qed.
Lemma bp_inv (p : positive) : bp (Zneg p) = / 2 ^ Pos.to_nat p.
Proof. change (Zneg p) with (Z.opp (Zpos p)). rewrite bpow_opp, bpow_pow. reflexivity. Qed.
(** With a factor in [0,1] the exact blend lies between the blended values. *)
Lemma exact_blend_range f l lo hi : 0 <= f <= 1 -> l <> [] -> (forall y, In y l -> lo <= y <= hi) -> lo <= exact_blend f l <= hi.
Proof.
  intros Hf NE H. unfold exact_blend. assert (L : (0 < length l)%nat) by (destruct l; [congruence|cbn; lia]).
  assert (W : forall c, c = rsum (length l) (fun j => lp_weight f (length l) j * c)) by (intros c; rewrite rsum_scal_r, lp_weight_total by exact L; ring).
  split; [rewrite (W lo)|rewrite (W hi)]; apply rsum_le; intros j Hj; apply Rmult_le_compat_l; try (apply lp_weight_nonneg, Hf); apply H, nth_In, Hj.
Qed.

(** T = double. *)
Theorem C152_filter_double :
  forall (M : nat) (f0 : f32) (v0 : f64) (h : list (ft_event f64)) (x : f64) (B : R),
  (0 < M)%nat -> (Z.of_nat M <= 2 ^ 20)%Z -> / 2 ^ 900 <= B <= 2 ^ 1000 ->
  PF32.fin (ft_factor_after f0 h) -> 0 <= PF32.val (ft_factor_after f0 h) <= 1 ->
  (forall y, In y (firstn M (x :: ft_added h)) -> fin y /\ Rabs (val y) <= B) ->
  exists s s' v, ft_run blend_double M (ft_make f0 v0) h = Ok s /\ ft_add blend_double M s x = Ok (s', v) /\ ft_get s' = v /\ fin v /\
  Rabs (val v - exact_blend (PF32.val (ft_factor_after f0 h)) (map val (firstn M (x :: ft_added h)))) <= (10 * INR M + 3 * INR M * INR M) * B / 2 ^ 53.
Proof.
  intros M f0 v0 h x B HM HM2 HB Ff Bf HX. set (f := ft_factor_after f0 h) in *.
  destruct (ft_after blend_double (fun _ => True) ltac:(intros; eexists; split; [reflexivity|exact I]) M f0 v0 h x HM ltac:(apply Forall_forall; intros; exact I) I) as (s & s' & v & E1 & E2 & E3 & _ & EL).
  exists s, s', v. split; [exact E1|]. split; [exact E2|]. split; [exact E3|].
  rewrite (window M x _ HM) in HX |- *. set (l := firstn (M - 1) (ft_added h)) in *.
  assert (EV : v = loop1 bd f (f64_of_f32 f) x l).
  { fold f in EL. revert EL. generalize (f64_of_f32 f) at 1 2. clear. revert x. induction l as [|y l IH]; intros x w H; cbn in *; [congruence|]. apply IH. exact H. }
  assert (Elo : / 2 ^ 900 = bp (-900)) by exact (eq_sym (bp_inv 900)). assert (Ehi : 2 ^ 1000 = bp 1000) by exact (eq_sym (bpow_pow 1000)). rewrite Elo, Ehi in HB. pose proof (bpow_gt_0 radix2 (-900)) as P9.
  assert (B2 : 2 * B <= bp 1001) by (change 1001%Z with (1 + 1000)%Z; rewrite bpow_plus; change (bp 1) with 2; lra).
  destruct (HX x (or_introl eq_refl)) as (Fx & Bx). destruct (M_bound M HM2) as (NB & NB2). pose proof uro_val as UV.
  assert (BP : 0 < B) by lra.
  destruct (loop1_total bd val fin B (10 * uro * B) f BP ltac:(rewrite UV; lra)
    ltac:(intros v1 x1 w1 H1 H2 H3 H4 H5 H6; exact (step_double B 1001 v1 x1 w1 ltac:(lra) B2 ltac:(lia) H1 H2 H3 H4 H5 H6)) Ff Bf x l Fx Bx ltac:(intros y Hy; apply HX; right; exact Hy) M (window_len M _ HM)) as (R1 & R2).
  - replace (INR M * (10 * uro * B) + 3 * uro * B * (INR M * INR M)) with ((10 * (INR M * uro) + 3 * (INR M * INR M * uro)) * B) by ring.
    rewrite <- (Rmult_1_l B) at 2. apply Rmult_le_compat_r; [lra|]. rewrite UV. lra.
  - rewrite EV. split; [exact R1|]. eapply Rle_trans; [exact R2|]. rewrite UV. apply Req_le. field.
Qed.
Print Assumptions C152_filter_double.

(** T = float: the error of each assignment to the float value is added. *)
Theorem C152_filter_float :
  forall (M : nat) (f0 v0 : f32) (h : list (ft_event f32)) (x : f32) (B : R),
  (0 < M)%nat -> (Z.of_nat M <= 2 ^ 20)%Z -> / 2 ^ 100 <= B <= 2 ^ 100 ->
  PF32.fin (ft_factor_after f0 h) -> 0 <= PF32.val (ft_factor_after f0 h) <= 1 ->
  (forall y, In y (firstn M (x :: ft_added h)) -> PF32.fin y /\ Rabs (PF32.val y) <= B) ->
  exists s s' v, ft_run blend_float M (ft_make f0 v0) h = Ok s /\ ft_add blend_float M s x = Ok (s', v) /\ ft_get s' = v /\ PF32.fin v /\
  Rabs (PF32.val v - exact_blend (PF32.val (ft_factor_after f0 h)) (map PF32.val (firstn M (x :: ft_added h)))) <= (3 * INR M / 2 ^ 24 + 3 * INR M * INR M / 2 ^ 53) * B.
Proof.
  intros M f0 v0 h x B HM HM2 HB Ff Bf HX. set (f := ft_factor_after f0 h) in *.
  destruct (ft_after blend_float (fun _ => True) ltac:(intros; eexists; split; [reflexivity|exact I]) M f0 v0 h x HM ltac:(apply Forall_forall; intros; exact I) I) as (s & s' & v & E1 & E2 & E3 & _ & EL).
  exists s, s', v. split; [exact E1|]. split; [exact E2|]. split; [exact E3|].
  rewrite (window M x _ HM) in HX |- *. set (l := firstn (M - 1) (ft_added h)) in *.
  assert (EV : v = loop1 bf f (f64_of_f32 f) x l).
  { fold f in EL. revert EL. generalize (f64_of_f32 f) at 1 2. clear. revert x. induction l as [|y l IH]; intros x w H; cbn in *; [congruence|]. apply IH. exact H. }
  assert (Elo : / 2 ^ 100 = bp (-100)) by exact (eq_sym (bp_inv 100)). assert (Ehi : 2 ^ 100 = bp 100) by exact (eq_sym (bpow_pow 100)). rewrite Elo, Ehi in HB. pose proof (bpow_gt_0 radix2 (-100)) as P9.
  destruct (HX x (or_introl eq_refl)) as (Fx & Bx). destruct (M_bound M HM2) as (NB & NB2). pose proof uro_val as UV. pose proof u32_val as UV32.
  assert (BP : 0 < B) by lra.
  destruct (loop1_total bf PF32.val PF32.fin B (3 * PF32.uro * B) f BP ltac:(rewrite UV32; lra)
    ltac:(intros v1 x1 w1 H1 H2 H3 H4 H5 H6; exact (step_float B v1 x1 w1 HB H1 H2 H3 H4 H5 H6)) Ff Bf x l Fx Bx ltac:(intros y Hy; apply HX; right; exact Hy) M (window_len M _ HM)) as (R1 & R2).
  - replace (INR M * (3 * PF32.uro * B) + 3 * uro * B * (INR M * INR M)) with ((3 * (INR M * PF32.uro) + 3 * (INR M * INR M * uro)) * B) by ring.
    rewrite <- (Rmult_1_l B) at 2. apply Rmult_le_compat_r; [lra|]. rewrite UV, UV32. lra.
  - rewrite EV. split; [exact R1|]. eapply Rle_trans; [exact R2|]. rewrite UV, UV32. apply Req_le. field.
Qed.
Print Assumptions C152_filter_float.

(** T = Vector< n, double >: each component as for double. *)
Theorem C152_filter_vector_double :
  forall (cfg : Cfg) (n M : nat) (f0 : f32) (v0 : list f64) (h : list (ft_event (list f64))) (x : list f64) (i : nat) (B : R),
  (0 < M)%nat -> (Z.of_nat M <= 2 ^ 20)%Z -> / 2 ^ 900 <= B <= 2 ^ 1000 -> (i < n)%nat ->
  (forall y, In y (x :: ft_added h) -> length y = n) ->
  PF32.fin (ft_factor_after f0 h) -> 0 <= PF32.val (ft_factor_after f0 h) <= 1 ->
  (forall y, In y (firstn M (x :: ft_added h)) -> fin (nth i y f64_zero) /\ Rabs (val (nth i y f64_zero)) <= B) ->
  exists s s' v, ft_run (blend_vec_double n) M (ft_make f0 v0) h = Ok s /\ ft_add (blend_vec_double n) M s x = Ok (s', v) /\ ft_get s' = v /\ length v = n /\
  fin (nth i v f64_zero) /\
  Rabs (val (nth i v f64_zero) - exact_blend (PF32.val (ft_factor_after f0 h)) (map (fun y => val (nth i y f64_zero)) (firstn M (x :: ft_added h)))) <= (10 * INR M + 3 * INR M * INR M) * B / 2 ^ 53.
Proof.
  intros cfg n M f0 v0 h x i B HM HM2 HB Hi HL Ff Bf HX. set (f := ft_factor_after f0 h) in *.
  destruct (ft_after (blend_vec_double n) (fun v => length v = n) ltac:(intros v1 x1 w1 H1 H2; destruct (blend_vec_double_spec n v1 x1 w1 H1 H2) as (r & E & L & _); exists r; auto) M f0 v0 h x HM
    ltac:(apply Forall_forall; intros y Hy; apply HL; right; exact Hy) ltac:(apply HL; left; reflexivity)) as (s & s' & v & E1 & E2 & E3 & E4 & EL).
  exists s, s', v. split; [exact E1|]. split; [exact E2|]. split; [exact E3|]. split; [exact E4|].
  rewrite (window M x _ HM) in HX |- *. set (l := firstn (M - 1) (ft_added h)) in *. fold f in EL.
  destruct (loop_comp f64_zero n (blend_vec_double n) bd f i) with (l := l) (w := f64_of_f32 f) (v := x) as (r & Er & EV).
  { intros v1 x1 w1 H1 H2. destruct (blend_vec_double_spec n v1 x1 w1 H1 H2) as (r & E & L & Hr). exists r. split; [exact E|]. split; [exact L|]. apply Hr. exact Hi. }
  { apply HL. left. reflexivity. }
  { intros y Hy. apply HL. right. rewrite <- (firstn_skipn (M - 1) (ft_added h)). apply in_or_app. left. exact Hy. }
  rewrite EL in Er. injection Er as <-.
  assert (Elo : / 2 ^ 900 = bp (-900)) by exact (eq_sym (bp_inv 900)). assert (Ehi : 2 ^ 1000 = bp 1000) by exact (eq_sym (bpow_pow 1000)). rewrite Elo, Ehi in HB. pose proof (bpow_gt_0 radix2 (-900)) as P9.
  assert (B2 : 2 * B <= bp 1001) by (change 1001%Z with (1 + 1000)%Z; rewrite bpow_plus; change (bp 1) with 2; lra).
  destruct (HX x (or_introl eq_refl)) as (Fx & Bx). destruct (M_bound M HM2) as (NB & NB2). pose proof uro_val as UV.
  assert (BP : 0 < B) by lra.
  destruct (loop1_total bd val fin B (10 * uro * B) f BP ltac:(rewrite UV; lra)
    ltac:(intros v1 x1 w1 H1 H2 H3 H4 H5 H6; exact (step_double B 1001 v1 x1 w1 ltac:(lra) B2 ltac:(lia) H1 H2 H3 H4 H5 H6)) Ff Bf (nth i x f64_zero) (map (fun y => nth i y f64_zero) l) Fx Bx) with (M := M) as (R1 & R2).
  - intros y Hy. apply in_map_iff in Hy as (z & <- & Hz). apply HX. right. exact Hz.
  - rewrite map_length. apply window_len, HM.
  - replace (INR M * (10 * uro * B) + 3 * uro * B * (INR M * INR M)) with ((10 * (INR M * uro) + 3 * (INR M * INR M * uro)) * B) by ring.
    rewrite <- (Rmult_1_l B) at 2. apply Rmult_le_compat_r; [lra|]. rewrite UV. lra.
  - rewrite EV. split; [exact R1|]. change (nth i x f64_zero :: map (fun y => nth i y f64_zero) l) with (map (fun y => nth i y f64_zero) (x :: l)) in R2. rewrite map_map in R2.
    eapply Rle_trans; [exact R2|]. rewrite UV. apply Req_le. field.
Qed.
Print Assumptions C152_filter_vector_double.

(** T = Vector< n, float >: the weights are rounded to float, too. *)
Theorem C152_filter_vector_float :
  forall (cfg : Cfg) (n M : nat) (f0 : f32) (v0 : list f32) (h : list (ft_event (list f32))) (x : list f32) (i : nat) (B : R),
  (0 < M)%nat -> (Z.of_nat M <= 2 ^ 20)%Z -> / 2 ^ 100 <= B <= 2 ^ 100 -> (i < n)%nat ->
  (forall y, In y (x :: ft_added h) -> length y = n) ->
  PF32.fin (ft_factor_after f0 h) -> 0 <= PF32.val (ft_factor_after f0 h) <= 1 ->
  (forall y, In y (firstn M (x :: ft_added h)) -> PF32.fin (nth i y f32_zero) /\ Rabs (PF32.val (nth i y f32_zero)) <= B) ->
  exists s s' v, ft_run (blend_vec_float n) M (ft_make f0 v0) h = Ok s /\ ft_add (blend_vec_float n) M s x = Ok (s', v) /\ ft_get s' = v /\ length v = n /\
  PF32.fin (nth i v f32_zero) /\
  Rabs (PF32.val (nth i v f32_zero) - exact_blend (PF32.val (ft_factor_after f0 h)) (map (fun y => PF32.val (nth i y f32_zero)) (firstn M (x :: ft_added h)))) <= (11 * INR M / 2 ^ 24 + 3 * INR M * INR M / 2 ^ 53) * B.
Proof.
  intros cfg n M f0 v0 h x i B HM HM2 HB Hi HL Ff Bf HX. set (f := ft_factor_after f0 h) in *.
  destruct (ft_after (blend_vec_float n) (fun v => length v = n) ltac:(intros v1 x1 w1 H1 H2; destruct (blend_vec_float_spec n v1 x1 w1 H1 H2) as (r & E & L & _); exists r; auto) M f0 v0 h x HM
    ltac:(apply Forall_forall; intros y Hy; apply HL; right; exact Hy) ltac:(apply HL; left; reflexivity)) as (s & s' & v & E1 & E2 & E3 & E4 & EL).
  exists s, s', v. split; [exact E1|]. split; [exact E2|]. split; [exact E3|]. split; [exact E4|].
  rewrite (window M x _ HM) in HX |- *. set (l := firstn (M - 1) (ft_added h)) in *. fold f in EL.
  destruct (loop_comp f32_zero n (blend_vec_float n) bvf f i) with (l := l) (w := f64_of_f32 f) (v := x) as (r & Er & EV).
  { intros v1 x1 w1 H1 H2. destruct (blend_vec_float_spec n v1 x1 w1 H1 H2) as (r & E & L & Hr). exists r. split; [exact E|]. split; [exact L|]. apply Hr. exact Hi. }
  { apply HL. left. reflexivity. }
  { intros y Hy. apply HL. right. rewrite <- (firstn_skipn (M - 1) (ft_added h)). apply in_or_app. left. exact Hy. }
  rewrite EL in Er. injection Er as <-.
  assert (Elo : / 2 ^ 100 = bp (-100)) by exact (eq_sym (bp_inv 100)). assert (Ehi : 2 ^ 100 = bp 100) by exact (eq_sym (bpow_pow 100)). rewrite Elo, Ehi in HB. pose proof (bpow_gt_0 radix2 (-100)) as P9.
  destruct (HX x (or_introl eq_refl)) as (Fx & Bx). destruct (M_bound M HM2) as (NB & NB2). pose proof uro_val as UV. pose proof u32_val as UV32.
  assert (BP : 0 < B) by lra.
  destruct (loop1_total bvf PF32.val PF32.fin B (11 * PF32.uro * B) f BP ltac:(rewrite UV32; lra)
    ltac:(intros v1 x1 w1 H1 H2 H3 H4 H5 H6; exact (step_vec_float B v1 x1 w1 HB H1 H2 H3 H4 H5 H6)) Ff Bf (nth i x f32_zero) (map (fun y => nth i y f32_zero) l) Fx Bx) with (M := M) as (R1 & R2).
  - intros y Hy. apply in_map_iff in Hy as (z & <- & Hz). apply HX. right. exact Hz.
  - rewrite map_length. apply window_len, HM.
  - replace (INR M * (11 * PF32.uro * B) + 3 * uro * B * (INR M * INR M)) with ((11 * (INR M * PF32.uro) + 3 * (INR M * INR M * uro)) * B) by ring.
    rewrite <- (Rmult_1_l B) at 2. apply Rmult_le_compat_r; [lra|]. rewrite UV, UV32. lra.
  - rewrite EV. split; [exact R1|]. change (nth i x f32_zero :: map (fun y => nth i y f32_zero) l) with (map (fun y => nth i y f32_zero) (x :: l)) in R2. rewrite map_map in R2.
    eapply Rle_trans; [exact R2|]. rewrite UV, UV32. apply Req_le. field.
Qed.
Print Assumptions C152_filter_vector_float.

(** The exact blend itself: a weighted mean (weights of C77 sum to 1), hence
    between the smallest and the largest of the last M values. *)
Theorem C152_exact_blend_is_mean :
  forall (f : R) (l : list R) (lo hi : R), 0 <= f <= 1 -> l <> [] -> (forall y, In y l -> lo <= y <= hi) -> lo <= exact_blend f l <= hi.
Proof. exact exact_blend_range. Qed.
Print Assumptions C152_exact_blend_is_mean.

(** A history that meets the hypotheses: factor 1/2, window of 2, values 2 then
    1; the filter returns 3/2. *)
Definition ft_h : list (ft_event f64) := [Added f64_one; FactorSet f32_half; Added f64_two].
Lemma half32 : PF32.fin f32_half /\ PF32.val f32_half = / 2.
Proof.
  split; [reflexivity|]. assert (H : forall y : f32, B2FF 24 128 y = F754_finite false 8388608 (-24) -> PF32.val y = / 2).
  { intros y Hy. destruct y as [s|s|s pl Hpl|s m e Hb]; try discriminate Hy. injection Hy as -> -> ->. change (PF32.val _) with (IZR 8388608 * bp (-24)). change (IZR 8388608) with (bp 23). rewrite <- bpow_plus. reflexivity. }
  apply H. vm_compute. reflexivity.
Qed.
Example C152_hypotheses_met :
  ft_factor_after f32_one ft_h = f32_half /\ PF32.fin f32_half /\ 0 <= PF32.val f32_half <= 1 /\
  (forall y, In y (firstn 2 (f64_one :: ft_added ft_h)) -> fin y /\ Rabs (val y) <= 2) /\ / 2 ^ 900 <= 2 <= 2 ^ 1000 /\
  match ft_run blend_double 2 (ft_make f32_one f64_zero) ft_h with
  | Ok s => match ft_add blend_double 2 s f64_one with Ok (_, v) => bits_of_b64 v = 0x3FF8000000000000%Z | _ => False end
  | _ => False end.
Proof.
  destruct half32 as (F & V). split; [reflexivity|]. split; [exact F|]. split; [rewrite V; lra|]. split.
  - intros y Hy. unfold ft_h in Hy. cbn [firstn ft_added app In] in Hy. destruct Hy as [<-|[<-|[]]]; (split; [reflexivity|]).
    + rewrite val_one, Rabs_R1. lra.
    + rewrite val_two, Rabs_pos_eq; lra.
  - split; [|vm_compute; reflexivity]. split.
    + apply Rle_trans with (/ 1); [apply Rinv_le; [lra|apply pow_R1_Rle; lra]|lra].
    + rewrite <- (pow_1 2) at 1. apply Rle_pow; [lra|lia].
Qed.
Example C152_vector_hypotheses_met (cfg : Cfg) :
  let h := [Added [f32_one; f32_two]; FactorSet f32_half; Added [f32_two; f32_zero]] in
  (forall y, In y ([f32_zero; f32_one] :: ft_added h) -> length y = 2%nat) /\
  (forall y i, In y (firstn 3 ([f32_zero; f32_one] :: ft_added h)) -> (i < 2)%nat -> PF32.fin (nth i y f32_zero) /\ Rabs (PF32.val (nth i y f32_zero)) <= 2) /\
  match ft_run (blend_vec_float 2) 3 (ft_make f32_half [f32_zero; f32_zero]) h with
  | Ok s => match ft_add (blend_vec_float 2) 3 s [f32_zero; f32_one] with Ok (_, v) => map bits_of_b32 v = [0x3F800000; 0x3F600000]%Z | _ => False end
  | _ => False end.
Proof.
  intros h. split; [intros y Hy; cbn in Hy; decompose [or] Hy; subst; try reflexivity; contradiction|]. split.
  - intros y i Hy Hi. unfold h in Hy. cbn [firstn ft_added app In] in Hy. assert (V0 : PF32.val f32_zero = 0) by reflexivity.
    destruct i as [|[|i]]; [| |lia]; decompose [or] Hy; subst; try contradiction; cbn [nth]; (split; [reflexivity|]); rewrite ?LF32.val_one, ?LF32.val_two, ?V0, ?Rabs_R1, ?Rabs_R0; try lra; rewrite Rabs_pos_eq; lra.
  - destruct cfg as [[|]]; vm_compute; reflexivity.
Qed.
