(** Longer proofs behind the vector properties. *)
From Coq Require Import ZArith.
From Verif Require Export InstR InstZ InstF LVector LVectorR LVector2 LF64.
From Flocq Require Export IEEE754.Binary IEEE754.Bits.

Lemma R_strict_weak `{RLim} : strict_weak (fun _ => True) (@sltb R RScalar).
Proof.
  constructor; cbn.
  - intros a _. apply Rltb_false; lra.
  - intros a b c _ _ _ H1 H2. apply Rltb_iff in H1, H2. apply Rltb_iff; lra.
  - intros a b c _ _ _ H1. apply Rltb_iff in H1. rewrite !Rltb_iff.
    destruct (Rlt_or_le a b); [left; auto|right; lra].
Qed.

Lemma UInt_strict_weak k : strict_weak (fun _ => True) (@sltb Z (UIntScalar k)).
Proof.
  constructor; cbn.
  - intros a _. apply Z.ltb_irrefl.
  - intros a b c _ _ _ H1 H2. apply Z.ltb_lt in H1, H2. apply Z.ltb_lt; lia.
  - intros a b c _ _ _ H1. apply Z.ltb_lt in H1. rewrite !Z.ltb_lt. lia.
Qed.

Lemma SInt_strict_weak k : strict_weak (fun x => x <> None) (@sltb (option Z) (SIntScalar k)).
Proof.
  constructor; cbn.
  - intros [a|] Ha; [|congruence]. apply Z.ltb_irrefl.
  - intros [a|] [b|] [c|] Ha Hb Hc; cbn; try congruence. intros H1 H2.
    apply Z.ltb_lt in H1, H2. apply Z.ltb_lt; lia.
  - intros [a|] [b|] [c|] Ha Hb Hc; cbn; try congruence. intros H1.
    apply Z.ltb_lt in H1. rewrite !Z.ltb_lt. lia.
Qed.

Lemma Forall_goodf {T} (good : T -> Prop) M u f :
  repV M u f -> Forall good u -> goodf good M f.
Proof.
  intros [Hl Hf] F i Hi. rewrite Forall_forall in F. apply F.
  eapply nth_error_In, Hf, Hi.
Qed.

Section Less.
Context (cfg : Cfg) (T : Type) (ST : Scalar T).

Lemma less_ok M (u v : list T) fu fv : repV M u fu -> repV M v fv ->
  (vec_less M u v = Ok true <-> lex sltb M fu fv) /\
  (vec_less M u v = Ok false <-> ~ lex sltb M fu fv).
Proof.
  intros Hu Hv. destruct (vec_less_spec M u v fu fv Hu Hv) as (b & E & Hb). rewrite E.
  destruct b.
  - assert (L : lex sltb M fu fv) by (apply Hb; reflexivity). split; split; try tauto; congruence.
  - assert (L : ~ lex sltb M fu fv) by (intros K; apply Hb in K; discriminate).
    split; split; try tauto; congruence.
Qed.

Lemma vec_less_total M (u v : list T) :
  (forall a b : T, sltb a b = false -> sltb b a = false -> a = b) ->
  length u = M -> length v = M ->
  vec_less M u v = Ok false -> vec_less M v u = Ok false -> u = v.
Proof.
  intros Tot Lu Lv H1 H2.
  pose proof (repV_nth M u szero Lu) as Hu. pose proof (repV_nth M v szero Lv) as Hv.
  apply (less_ok M u v _ _ Hu Hv) in H1. apply (less_ok M v u _ _ Hv Hu) in H2.
  eapply repV_inj; [exact Hu|]. eapply repV_ext; [exact Hv|]. intros i Hi.
  destruct (lex_incomparable sltb M _ _ H1 H2 i Hi) as [A B]. symmetry; apply Tot; assumption.
Qed.

Lemma vec_less_strict_weak (good : T -> Prop) M :
  strict_weak good sltb ->
  forall u v w : list T,
  length u = M -> length v = M -> length w = M ->
  Forall good u -> Forall good v -> Forall good w ->
  vec_less M u u = Ok false /\
  (vec_less M u v = Ok true -> vec_less M v u = Ok false) /\
  (vec_less M u v = Ok true -> vec_less M v w = Ok true -> vec_less M u w = Ok true) /\
  (vec_less M u w = Ok true -> vec_less M u v = Ok true \/ vec_less M v w = Ok true) /\
  (vec_less M u v = Ok false -> vec_less M v u = Ok false ->
   forall i a b, nth_error u i = Some a -> nth_error v i = Some b ->
     sltb a b = false /\ sltb b a = false).
Proof.
  intros W u v w Lu Lv Lw Gu Gv Gw.
  pose proof (repV_nth M u szero Lu) as Hu. pose proof (repV_nth M v szero Lv) as Hv.
  pose proof (repV_nth M w szero Lw) as Hw.
  pose proof (Forall_goodf good M u _ Hu Gu) as Fu.
  pose proof (Forall_goodf good M v _ Hv Gv) as Fv.
  pose proof (Forall_goodf good M w _ Hw Gw) as Fw.
  split; [|split; [|split; [|split]]].
  - apply (less_ok M u u _ _ Hu Hu). apply (lex_irrefl good); auto.
  - intros H. apply (less_ok M u v _ _ Hu Hv) in H. apply (less_ok M v u _ _ Hv Hu).
    intros K. apply (lex_irrefl good sltb W M (fun i => nth i u szero) Fu).
    eapply (lex_trans good sltb W M _ (fun i => nth i v szero)); eauto.
  - intros H1 H2. apply (less_ok M u v _ _ Hu Hv) in H1. apply (less_ok M v w _ _ Hv Hw) in H2.
    apply (less_ok M u w _ _ Hu Hw). eapply (lex_trans good sltb W M _ (fun i => nth i v szero)); eauto.
  - intros H. apply (less_ok M u w _ _ Hu Hw) in H.
    destruct (lex_cotrans good sltb W M _ (fun i => nth i v szero) _ Fu Fv Fw H) as [K|K].
    + left. apply (less_ok M u v _ _ Hu Hv); exact K.
    + right. apply (less_ok M v w _ _ Hv Hw); exact K.
  - intros H1 H2 i a b Ha Hb.
    assert (Hi : i < M) by (rewrite <- Lu; apply nth_error_Some; congruence).
    apply (less_ok M u v _ _ Hu Hv) in H1. apply (less_ok M v u _ _ Hv Hu) in H2.
    pose proof (lex_incomparable sltb M _ _ H1 H2 i Hi) as K.
    destruct Hu as [_ Hu], Hv as [_ Hv]. rewrite Hu in Ha by exact Hi. rewrite Hv in Hb by exact Hi.
    injection Ha as <-. injection Hb as <-. exact K.
Qed.
End Less.

Lemma vec_less_f64 (cfg : Cfg) (M : nat) : let ST := F64Scalar in
  forall u v w : list f64, length u = M -> length v = M -> length w = M ->
  vec_less M u u = Ok false /\
  (vec_less M u v = Ok true -> vec_less M v u = Ok false) /\
  (Forall (fun x => is_nan 53 1024 x = false) u ->
   Forall (fun x => is_nan 53 1024 x = false) v ->
   Forall (fun x => is_nan 53 1024 x = false) w ->
   vec_less M u v = Ok true -> vec_less M v w = Ok true -> vec_less M u w = Ok true).
Proof.
  intros ST u v w Lu Lv Lw.
  pose proof (repV_nth M u szero Lu) as Hu. pose proof (repV_nth M v szero Lv) as Hv.
  split; [|split].
  - apply (less_ok cfg f64 ST M u u _ _ Hu Hu). intros (k & Hk & E & _).
    pose proof (Bltb_asym _ _ E) as K. exact (eq_true_false_abs _ E K).
  - intros H. apply (less_ok cfg f64 ST M u v _ _ Hu Hv) in H. apply (less_ok cfg f64 ST M v u _ _ Hv Hu).
    destruct H as (k & Hk & E & I). intros (j & Hj & E' & I').
    destruct (Nat.lt_trichotomy j k) as [L|[L|L]].
    + destruct (I j L); congruence.
    + subst j. apply Bltb_asym in E. exact (eq_true_false_abs _ E' E).
    + destruct (I' k L); congruence.
  - intros Gu Gv Gw H1 H2.
    destruct (vec_less_strict_weak cfg f64 ST not_nan M f64_strict_weak u v w Lu Lv Lw Gu Gv Gw)
      as (_ & _ & K & _). apply K; assumption.
Qed.

Local Open Scope R_scope.
Section Rot.
Context (cfg : Cfg) (lim : RLim).

Lemma V3_eq (a b c x y z : R) : a = x -> b = y -> c = z -> (a, b, c) = (x, y, z).
Proof. intros -> -> ->; reflexivity. Qed.

Lemma rotate_is_rodrigues (v axis : V3) (t : R) :
  axis <> zero3 ->
  vec_rotate (v3 v) t (v3 axis) = Ok (v3 (rodrigues (scale3 (/ len3R axis) axis) t v)).
Proof.
  intros Hax. assert (HL : len3R axis <> 0) by (rewrite len3_zero; exact Hax).
  unfold vec_rotate. rewrite vec_normalize_v3 by exact HL. cbn [bind].
  pose proof (len3_unit axis HL) as HU. apply len3_one_iff in HU.
  destruct (scale3 (/ len3R axis) axis) as [[k0 k1] k2]. destruct v as [[x y] z].
  cbn -[cos sin]. unfold v3. f_equal. cbn in HU.
  f_equal; [ring|]. f_equal; [ring|]. f_equal; ring.
Qed.

Lemma rodrigues_dot (k : V3) (t : R) (v w : V3) :
  dot3 k k = 1 -> dot3 (rodrigues k t v) (rodrigues k t w) = dot3 v w.
Proof.
  intros Hk. pose proof (sin2_cos2 t) as SC. unfold Rsqr in SC.
  set (c := cos t) in *; set (s := sin t) in *.
  destruct k as [[k0 k1] k2], v as [[x y] z], w as [[a b] d]. unfold rodrigues. fold c s. cbn in *.
  assert (E1 : k0 * k0 = 1 - k1 * k1 - k2 * k2) by lra.
  assert (E2 : s * s = 1 - c * c) by lra.
  ring [E1 E2].
Qed.

Lemma rodrigues_axis (k : V3) (t : R) (v : V3) :
  dot3 k k = 1 -> dot3 (rodrigues k t v) k = dot3 v k.
Proof.
  intros Hk. destruct k as [[k0 k1] k2], v as [[x y] z]. unfold rodrigues. cbn in *.
  assert (E1 : k0 * k0 = 1 - k1 * k1 - k2 * k2) by lra.
  ring [E1].
Qed.

Lemma rodrigues_compose (k : V3) (s t : R) (v : V3) :
  dot3 k k = 1 -> rodrigues k s (rodrigues k t v) = rodrigues k (s + t) v.
Proof.
  intros Hk. unfold rodrigues. rewrite cos_plus, sin_plus.
  set (c := cos t); set (n := sin t); set (c' := cos s); set (n' := sin s).
  destruct k as [[k0 k1] k2], v as [[x y] z]. cbn in *.
  assert (E1 : k0 * k0 = 1 - k1 * k1 - k2 * k2) by lra.
  apply V3_eq; ring [E1].
Qed.

Lemma rodrigues_0 (k : V3) (v : V3) : rodrigues k 0 v = v.
Proof.
  unfold rodrigues. rewrite cos_0, sin_0. destruct k as [[k0 k1] k2], v as [[x y] z]. cbn.
  apply V3_eq; ring.
Qed.

Lemma rodrigues_fix (k : V3) (t r : R) : dot3 k k = 1 -> rodrigues k t (scale3 r k) = scale3 r k.
Proof.
  intros Hk. unfold rodrigues. destruct k as [[k0 k1] k2]. cbn in *.
  assert (E1 : k0 * k0 = 1 - k1 * k1 - k2 * k2) by lra.
  apply V3_eq; ring [E1].
Qed.

Lemma scale3_scale a b v : scale3 a (scale3 b v) = scale3 (a * b) v.
Proof. destruct v as [[x y] z]; cbn. apply V3_eq; ring. Qed.
Lemma scale3_1 v : scale3 1 v = v.
Proof. destruct v as [[x y] z]; cbn. apply V3_eq; ring. Qed.

Lemma rotate_consequences (axis : V3) : axis <> zero3 ->
  forall (t s : R) (v w : V3),
  exists v' w' : V3,
  vec_rotate (v3 v) t (v3 axis) = Ok (v3 v') /\
  vec_rotate (v3 w) t (v3 axis) = Ok (v3 w') /\
  dot3 v' w' = dot3 v w /\ len3R v' = len3R v /\
  dot3 v' axis = dot3 v axis /\
  vec_rotate (v3 v') s (v3 axis) = vec_rotate (v3 v) (s + t)%R (v3 axis) /\
  vec_rotate (v3 v') (- t)%R (v3 axis) = Ok (v3 v) /\
  (forall k : R, vec_rotate (v3 (scale3 k axis)) t (v3 axis) = Ok (v3 (scale3 k axis))) /\
  (forall k : R, (0 < k)%R -> vec_rotate (v3 v) t (v3 (scale3 k axis)) = Ok (v3 v')).
Proof.
  intros Hax t s v w.
  assert (HL : len3R axis <> 0) by (rewrite len3_zero; exact Hax).
  set (L := len3R axis) in *. set (k := scale3 (/ L) axis).
  assert (Hk : dot3 k k = 1) by (apply len3_one_iff, len3_unit; exact HL).
  assert (Eax : axis = scale3 L k).
  { unfold k. rewrite scale3_scale, Rinv_r by exact HL. rewrite scale3_1; reflexivity. }
  exists (rodrigues k t v), (rodrigues k t w).
  rewrite !rotate_is_rodrigues by exact Hax. fold L. fold k.
  split; [reflexivity|]. split; [reflexivity|]. split; [apply rodrigues_dot, Hk|].
  split; [unfold len3R; f_equal; apply rodrigues_dot, Hk|].
  split.
  { rewrite Eax.
    assert (D : forall x, dot3 x (scale3 L k) = L * dot3 x k)
      by (intros [[x y] z]; destruct k as [[k0 k1] k2]; cbn; ring).
    rewrite !D, rodrigues_axis by exact Hk. reflexivity. }
  split; [rewrite rodrigues_compose by exact Hk; reflexivity|].
  split; [rewrite rodrigues_compose by exact Hk; replace (- t + t) with 0 by ring; rewrite rodrigues_0; reflexivity|].
  split.
  - intros r. rewrite rotate_is_rodrigues by exact Hax. fold L. fold k. do 2 f_equal.
    rewrite Eax, scale3_scale. apply rodrigues_fix, Hk.
  - intros r Hr.
    assert (Hr3 : len3R (scale3 r axis) = r * L) by (rewrite len3_scale, Rabs_pos_eq by lra; reflexivity).
    rewrite rotate_is_rodrigues.
    + rewrite Hr3, scale3_scale. do 3 f_equal. unfold k. f_equal. field. split; [exact HL|lra].
    + rewrite <- len3_zero, Hr3. apply Rmult_integral_contrapositive. split; [lra|exact HL].
Qed.
End Rot.
