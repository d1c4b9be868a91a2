(** Properties C35-C45: vector arithmetic, Euclidean laws, cross product,
    orders and comparisons. *)
From Flocq Require Import IEEE754.Binary IEEE754.Bits.
From Verif Require Import InstR InstZ InstF LVector LVectorR LVector2 LF64 LVecProps.

(** C35.  Every operator acts component by component, with the scalar operation
    of the element type, for every dimension, element type and accessor mode. *)
Theorem C35_vector_elementwise :
  forall (cfg : Cfg) (T : Type) (ST : Scalar T) (M : nat) (u v : list T) (fu fv : nat -> T) (s : T),
  repV M u fu -> repV M v fv ->
  returns (vec_add M u v) (fun r => repV M r (fun i => sadd (fu i) (fv i))) /\
  returns (vec_sub M u v) (fun r => repV M r (fun i => ssub (fu i) (fv i))) /\
  returns (vec_mul M u v) (fun r => repV M r (fun i => smul (fu i) (fv i))) /\
  returns (vec_add_s M u s) (fun r => repV M r (fun i => sadd (fu i) s)) /\
  returns (vec_sub_s M u s) (fun r => repV M r (fun i => ssub (fu i) s)) /\
  returns (vec_mul_s M u s) (fun r => repV M r (fun i => smul (fu i) s)) /\
  returns (vec_neg M u) (fun r => repV M r (fun i => sopp (fu i))) /\
  returns (vec_negate M u) (fun r => repV M r (fun i => sopp (fu i))).
Proof.
  intros cfg T ST M u v fu fv s Hu Hv. repeat split;
  first [ apply (vec_zip_spec M _ u v fu fv); auto
        | apply (vec_map_spec M _ u fu); auto
        | apply (vec_negate_spec M u fu); auto ].
Qed.
Print Assumptions C35_vector_elementwise.

(** C35, assignment forms; the operand may be the vector itself ([Self]). *)
Theorem C35_vector_assign_elementwise :
  forall (cfg : Cfg) (T : Type) (ST : Scalar T) (M : nat) (u : list T) (o : arg T) (fu fo : nat -> T) (s : T),
  repV M u fu ->
  match o with Val v => repV M v fo | Self => fo = fu end ->
  returns (vec_add_assign M u o) (fun r => repV M r (fun i => sadd (fu i) (fo i))) /\
  returns (vec_sub_assign M u o) (fun r => repV M r (fun i => ssub (fu i) (fo i))) /\
  returns (vec_mul_assign M u o) (fun r => repV M r (fun i => smul (fu i) (fo i))) /\
  returns (vec_add_assign_s M u s) (fun r => repV M r (fun i => sadd (fu i) s)) /\
  returns (vec_sub_assign_s M u s) (fun r => repV M r (fun i => ssub (fu i) s)) /\
  returns (vec_mul_assign_s M u s) (fun r => repV M r (fun i => smul (fu i) s)).
Proof.
  intros cfg T ST M u o fu fo s Hu Ho. repeat split;
  first [ apply (vec_zip_assign_spec M _ u o fu fo); auto; fail
        | apply (vec_map_assign_spec M _ u fu); auto ].
Qed.
Print Assumptions C35_vector_assign_elementwise.

(** C35, division: defined exactly when every component division is. *)
Theorem C35_vector_division :
  forall (cfg : Cfg) (T : Type) (ST : Scalar T) (M : nat) (u v : list T) (fu fv : nat -> T),
  repV M u fu -> repV M v fv ->
  ((exists r, vec_div M u v = Ok r) <-> forall i, i < M -> exists q, sdiv (fu i) (fv i) = Ok q) /\
  ((exists r, vec_div_assign M u (Val v) = Ok r) <-> forall i, i < M -> exists q, sdiv (fu i) (fv i) = Ok q) /\
  ((exists r, vec_div_assign M u Self = Ok r) <-> forall i, i < M -> exists q, sdiv (fu i) (fu i) = Ok q) /\
  (forall q, (forall i, i < M -> sdiv (fu i) (fv i) = Ok (q i)) ->
     returns (vec_div M u v) (fun r => repV M r q) /\
     returns (vec_div_assign M u (Val v)) (fun r => repV M r q)) /\
  (forall q, (forall i, i < M -> sdiv (fu i) (fu i) = Ok (q i)) ->
     returns (vec_div_assign M u Self) (fun r => repV M r q)) /\
  (forall s q, (forall i, i < M -> sdiv (fu i) s = Ok (q i)) ->
     returns (vec_div_s M u s) (fun r => repV M r q) /\
     returns (vec_div_assign_s M u s) (fun r => repV M r q)).
Proof.
  intros cfg T ST M u v fu fv Hu Hv.
  assert (D : forall f g : nat -> T, (forall i, i < M -> exists q, sdiv (f i) (g i) = Ok q) ->
            exists q : nat -> T, forall i, i < M -> sdiv (f i) (g i) = Ok (q i)).
  { intros f g H. exists (fun i => match sdiv (f i) (g i) with Ok x => x | _ => szero end).
    intros i Hi. destruct (H i Hi) as (q & E). rewrite E; reflexivity. }
  split; [|split; [|split; [|split; [|split]]]].
  - split; [intros (r & E); exact (vec_zip_inv M _ u v fu fv r Hu Hv E)|].
    intros H. destruct (D fu fv H) as (q & Hq).
    destruct (vec_zip_spec M sdiv u v fu fv q Hu Hv Hq) as (r & E & _). exists r; exact E.
  - split; [intros (r & E); exact (vec_zip_assign_inv M _ u (Val v) fu fv r Hu Hv E)|].
    intros H. destruct (D fu fv H) as (q & Hq).
    destruct (vec_zip_assign_spec M sdiv u (Val v) fu fv q Hu Hv Hq) as (r & E & _). exists r; exact E.
  - split; [intros (r & E); exact (vec_zip_assign_inv M _ u Self fu fu r Hu eq_refl E)|].
    intros H. destruct (D fu fu H) as (q & Hq).
    destruct (vec_zip_assign_spec M sdiv u Self fu fu q Hu eq_refl Hq) as (r & E & _). exists r; exact E.
  - intros q Hq. split; [apply (vec_zip_spec M sdiv u v fu fv q Hu Hv Hq)|].
    apply (vec_zip_assign_spec M sdiv u (Val v) fu fv q Hu Hv Hq).
  - intros q Hq. apply (vec_zip_assign_spec M sdiv u Self fu fu q Hu eq_refl Hq).
  - intros s q Hq. split; [apply (vec_map_spec M (fun a => sdiv a s) u fu q Hu Hq)|].
    apply (vec_map_assign_spec M (fun a => sdiv a s) u fu q Hu Hq).
Qed.
Print Assumptions C35_vector_division.

(** C35, signed integers of k+1 bits: [a+b], [a-b] and [a*b] are computed
    without signed overflow (no component is the poison value [None]) exactly
    when every mathematical result fits, and are then the mathematical results;
    dividing by zero or INT_MIN by -1 is undefined behaviour. *)
Theorem C35_vector_int_overflow :
  forall (cfg : Cfg) (k : Z) (M : nat) (u v : list (option Z)) (a b : nat -> Z),
  let ST := SIntScalar k in
  repV M u (fun i => Some (a i)) -> repV M v (fun i => Some (b i)) ->
  let fits z := (- 2 ^ k <= z < 2 ^ k)%Z in
  let exact_iff_fits (r : list (option Z)) (f : nat -> Z) :=
    length r = M /\
    ((forall i, i < M -> nth_error r i <> Some None) <-> (forall i, i < M -> fits (f i))) /\
    (forall i, i < M -> fits (f i) -> nth_error r i = Some (Some (f i))) in
  returns (vec_add M u v) (fun r => exact_iff_fits r (fun i => a i + b i)%Z) /\
  returns (vec_sub M u v) (fun r => exact_iff_fits r (fun i => a i - b i)%Z) /\
  returns (vec_mul M u v) (fun r => exact_iff_fits r (fun i => a i * b i)%Z) /\
  ((exists r, vec_div M u v = Ok r) <->
   forall i, i < M -> b i <> 0%Z /\ fits (Z.quot (a i) (b i))).
Proof.
  intros cfg k M u v a b ST Hu Hv fits exact_iff_fits.
  assert (F : forall z, in_range k z = true <-> fits z).
  { intros z. unfold in_range, fits. rewrite andb_true_iff, Z.leb_le, Z.ltb_lt. tauto. }
  assert (K : forall op : Z -> Z -> Z, returns (vec_zip M (fun x y => Ok (lift2 k op x y)) u v)
                (fun r => exact_iff_fits r (fun i => op (a i) (b i)))).
  { intros op.
    eapply returns_impl; [eapply (vec_zip_spec M _ u v _ _ (fun i => clip k (op (a i) (b i))) Hu Hv);
                          intros; reflexivity|].
    intros r [Hl Hr]. split; [exact Hl|]. split.
    - split; intros H i Hi; specialize (H i Hi).
      + rewrite Hr in H by exact Hi. unfold clip in H. apply F.
        destruct (in_range k (op (a i) (b i))); congruence.
      + rewrite Hr by exact Hi. apply F in H. unfold clip. rewrite H. congruence.
    - intros i Hi H. rewrite Hr by exact Hi. apply F in H. unfold clip; rewrite H; reflexivity. }
  split; [apply (K Z.add)|]. split; [apply (K Z.sub)|]. split; [apply (K Z.mul)|].
  assert (E : forall i, (exists q, sdiv (Some (a i)) (Some (b i)) = Ok q) <->
                        (b i <> 0%Z /\ fits (Z.quot (a i) (b i)))).
  { intros i. cbn. rewrite <- F. destruct (Z.eqb_spec (b i) 0) as [E0|E0].
    - split; [intros (q & Eq); discriminate|tauto].
    - destruct (in_range k (a i ÷ b i)%Z).
      + split; [tauto|]. intros _. eexists; reflexivity.
      + split; [intros (q & Eq); discriminate|]. intros [_ X]; discriminate. }
  split.
  - intros (r & Er) i Hi. apply E. exact (vec_zip_inv M _ u v _ _ r Hu Hv Er i Hi).
  - intros H.
    destruct (vec_zip_spec M sdiv u v _ _ (fun i => Some (a i ÷ b i)%Z) Hu Hv) as (r & Er & _).
    + intros i Hi. destruct (H i Hi) as [H0 H1]. apply F in H1. cbn.
      destruct (Z.eqb_spec (b i) 0); [contradiction|]. rewrite H1; reflexivity.
    + exists r; exact Er.
Qed.
Print Assumptions C35_vector_int_overflow.

Example C35_hypotheses_met :
  let cfg := {| safe := true |} in let ST := SIntScalar 31 in
  vec_add 3 [Some 1; Some (2 ^ 31 - 1); Some (-5)]%Z [Some 2; Some 1; Some 7]%Z
  = Ok [Some 3; None; Some 2]%Z.
Proof. reflexivity. Qed.

(** C36.  dot, squared_length, length, distance compute the Euclidean
    quantities, in every dimension. *)
Theorem C36_dot_length_distance_values :
  forall (cfg : Cfg) (lim : RLim) (M : nat) (u v : list R) (fu fv : nat -> R),
  repV M u fu -> repV M v fv ->
  vec_dot M u v = Ok (rsum M (fun i => fu i * fv i)%R) /\
  vec_squared_length M u = vec_dot M u u /\
  vec_length M u = Ok (sqrt (rsum M (fun i => fu i * fu i)%R)) /\
  vec_norm M u = vec_length M u /\
  vec_squared_distance M u v = Ok (rsum M (fun i => (fu i - fv i) * (fu i - fv i))%R) /\
  vec_distance M u v = Ok (sqrt (rsum M (fun i => (fu i - fv i) * (fu i - fv i))%R)).
Proof.
  intros cfg lim M u v fu fv Hu Hv.
  rewrite (vec_dot_R M u v fu fv Hu Hv), (vec_dot_R M u u fu fu Hu Hu), (vec_squared_length_R M u fu Hu),
    (vec_norm_R M u fu Hu), (vec_length_R M u fu Hu), (vec_squared_distance_R M u v fu fv Hu Hv),
    (vec_distance_R M u v fu fv Hu Hv). repeat split.
Qed.
Print Assumptions C36_dot_length_distance_values.

(** C36, the laws, stated on results of the functions themselves. *)
Theorem C36_euclidean_laws :
  forall (cfg : Cfg) (lim : RLim) (M : nat) (u v w : list R),
  length u = M -> length v = M -> length w = M ->
  exists duv dvu duu dvw lu lv duw suv lsuv dist_uv dist_vu dist_vw dist_uw s,
  (vec_dot M u v = Ok duv /\ vec_dot M v u = Ok dvu /\ vec_dot M u u = Ok duu /\
   vec_dot M v w = Ok dvw /\ vec_dot M u w = Ok duw /\
   vec_length M u = Ok lu /\ vec_length M v = Ok lv /\
   vec_add M u v = Ok suv /\ vec_length M suv = Ok lsuv /\
   vec_dot M suv w = Ok s /\
   vec_distance M u v = Ok dist_uv /\ vec_distance M v u = Ok dist_vu /\
   vec_distance M v w = Ok dist_vw /\ vec_distance M u w = Ok dist_uw) /\
  (duv = dvu /\                                   (* symmetry *)
   s = duw + dvw /\                               (* additivity *)
   0 <= duu /\ (duu = 0 <-> forall x, In x u -> x = 0) /\
   lu * lu = duu /\ 0 <= lu /\
   Rabs duv <= lu * lv /\                         (* Cauchy-Schwarz *)
   lsuv <= lu + lv /\                             (* triangle inequality *)
   dist_uv = dist_vu /\ 0 <= dist_uv /\ (dist_uv = 0 <-> u = v) /\
   dist_uw <= dist_uv + dist_vw)%R.
Proof.
  intros cfg lim M u v w Lu Lv Lw.
  pose proof (repV_nth M u 0%R Lu) as Hu. pose proof (repV_nth M v 0%R Lv) as Hv.
  pose proof (repV_nth M w 0%R Lw) as Hw.
  set (fu := fun i => nth i u 0%R) in *. set (fv := fun i => nth i v 0%R) in *.
  set (fw := fun i => nth i w 0%R) in *.
  destruct (vec_zip_spec M (fun a b => Ok (sadd a b)) u v fu fv (fun i => fu i + fv i)%R Hu Hv)
    as (suv & Es & Hs); [reflexivity|].
  do 14 eexists. split; [repeat (split; [solve
    [ exact (vec_dot_R M u v fu fv Hu Hv) | exact (vec_dot_R M v u fv fu Hv Hu)
    | exact (vec_dot_R M u u fu fu Hu Hu) | exact (vec_dot_R M v w fv fw Hv Hw)
    | exact (vec_dot_R M u w fu fw Hu Hw) | exact (vec_length_R M u fu Hu) | exact (vec_length_R M v fv Hv)
    | exact Es | exact (vec_length_R M suv _ Hs) | exact (vec_dot_R M suv w _ fw Hs Hw)
    | exact (vec_distance_R M u v fu fv Hu Hv) | exact (vec_distance_R M v u fv fu Hv Hu)
    | exact (vec_distance_R M v w fv fw Hv Hw) ] |]); exact (vec_distance_R M u w fu fw Hu Hw)|].
  split; [apply dotR_sym|]. split; [rewrite (dotR_plus_l M fu fv fw); reflexivity|].
  split; [apply dotR_nonneg|]. split.
  { split; intros H.
    - intros x Hx. apply In_nth with (d := 0%R) in Hx as (i & Hi & <-).
      apply (dotR_zero M fu H i); lia.
    - apply rsum_zero'. intros i Hi. unfold fu.
      rewrite (H (nth i u 0%R)) by (apply nth_In; lia). ring. }
  split; [apply lenR_sq|]. split; [apply lenR_nonneg|]. split; [apply lenR_cs|].
  split; [apply lenR_triangle|]. split.
  { unfold distR, lenR. f_equal. unfold dotR. apply rsum_ext; intros; ring. }
  split; [apply lenR_nonneg|]. split.
  { split; intros H.
    - apply (repV_inj M u v fv); [|exact Hv]. eapply repV_ext; [exact Hu|].
      intros i Hi. pose proof (lenR_zero M _ H i Hi) as K; cbv beta in K. lra.
    - unfold fv, fu. rewrite H. unfold distR. rewrite (lenR_ext M _ (fun _ => 0%R)) by (intros; ring).
      unfold lenR, dotR. rewrite rsum_zero' by (intros; ring). apply sqrt_0. }
  unfold distR. rewrite (lenR_ext M (fun i => fu i - fw i)%R (fun i => (fu i - fv i) + (fv i - fw i))%R)
    by (intros; ring). apply (lenR_triangle M (fun i => fu i - fv i)%R (fun i => fv i - fw i)%R).
Qed.
Print Assumptions C36_euclidean_laws.

(** C36, homogeneity of dot and length. *)
Theorem C36_homogeneous :
  forall (cfg : Cfg) (lim : RLim) (M : nat) (u v : list R) (k : R),
  length u = M -> length v = M ->
  exists ku d kd l kl,
  vec_mul_s M u k = Ok ku /\ vec_dot M u v = Ok d /\ vec_dot M ku v = Ok kd /\
  vec_length M u = Ok l /\ vec_length M ku = Ok kl /\
  kd = (k * d)%R /\ kl = (Rabs k * l)%R.
Proof.
  intros cfg lim M u v k Lu Lv.
  pose proof (repV_nth M u 0%R Lu) as Hu. pose proof (repV_nth M v 0%R Lv) as Hv.
  set (fu := fun i => nth i u 0%R) in *. set (fv := fun i => nth i v 0%R) in *.
  destruct (vec_map_spec M (fun a => Ok (smul a k)) u fu (fun i => k * fu i)%R Hu) as (ku & Ek & Hk).
  { intros i Hi; cbn. rewrite Rmult_comm; reflexivity. }
  exists ku, (dotR M fu fv), (dotR M (fun i => k * fu i)%R fv), (lenR M fu), (lenR M (fun i => k * fu i)%R).
  split; [exact Ek|]. split; [exact (vec_dot_R M u v fu fv Hu Hv)|].
  split; [exact (vec_dot_R M ku v _ fv Hk Hv)|]. split; [exact (vec_length_R M u fu Hu)|].
  split; [exact (vec_length_R M ku _ Hk)|]. split; [apply dotR_scal_l|apply lenR_scal].
Qed.
Print Assumptions C36_homogeneous.

Example C36_hypotheses_met (cfg : Cfg) (lim : RLim) :
  vec_dot 2 [3; 4]%R [1; 2]%R = Ok 11%R /\ length [3; 4]%R = 2.
Proof.
  split; [|reflexivity]. rewrite (vec_dot_R 2 _ _ _ _ (repV_nth 2 [3; 4]%R 0%R eq_refl) (repV_nth 2 [1; 2]%R 0%R eq_refl)).
  f_equal. unfold dotR; cbn; lra.
Qed.

(** C37.  normalize(): unit length, same direction, old length returned, zero
    vector untouched, no division by zero (the result is always [Ok]). *)
Theorem C37_normalize :
  forall (cfg : Cfg) (lim : RLim) (M : nat) (v : list R) (f : nat -> R),
  repV M v f ->
  ((forall i, i < M -> f i = 0%R) -> vec_normalize M v = Ok (0%R, v)) /\
  ((exists i, i < M /\ f i <> 0%R) ->
   exists len r g,
     vec_normalize M v = Ok (len, r) /\ vec_normalized M v = Ok r /\
     vec_length M v = Ok len /\ (0 < len)%R /\
     repV M r g /\ (forall i, i < M -> f i = (len * g i)%R) /\
     vec_length M r = Ok 1%R).
Proof.
  intros cfg lim M v f Hv. split.
  - intros H. apply (vec_normalize_zero M v f Hv). unfold lenR, dotR.
    rewrite rsum_zero' by (intros i Hi; rewrite H by exact Hi; ring). apply sqrt_0.
  - intros (i0 & Hi0 & Hne).
    assert (HL : lenR M f <> 0%R) by (intros E; apply Hne, (lenR_zero M f E i0 Hi0)).
    destruct (vec_normalize_R M v f Hv HL) as ([len r] & E & -> & Hr).
    exists (lenR M f), r, (fun i => f i / lenR M f)%R. split; [exact E|].
    split; [unfold vec_normalized; rewrite E; reflexivity|].
    split; [exact (vec_length_R M v f Hv)|].
    split; [pose proof (lenR_nonneg M f); lra|]. split; [exact Hr|].
    split; [intros i Hi; field; exact HL|].
    rewrite (vec_length_R M r _ Hr). f_equal.
    rewrite (lenR_ext M _ (fun i => / lenR M f * f i)%R) by (intros; field; exact HL).
    rewrite lenR_scal. pose proof (lenR_nonneg M f).
    rewrite Rabs_pos_eq; [field; exact HL|]. left; apply Rinv_0_lt_compat; lra.
Qed.
Print Assumptions C37_normalize.

Example C37_hypotheses_met :
  repV 2 [3; 4]%R (fun i => nth i [3; 4]%R 0%R) /\ (exists i, i < 2 /\ nth i [3; 4]%R 0%R <> 0%R).
Proof. split; [apply repV_nth; reflexivity|]. exists 0%nat. cbn. split; [lia|lra]. Qed.

(** C38.  The cross product. *)
Theorem C38_cross :
  forall (cfg : Cfg) (lim : RLim) (a b c : V3),
  vec_cross (v3 a) (v3 b) = Ok (v3 (cross3 a b)) /\
  vec_dot 3 (v3 a) (v3 (cross3 a b)) = Ok 0%R /\
  vec_dot 3 (v3 b) (v3 (cross3 a b)) = Ok 0%R /\
  (exists n, vec_cross (v3 b) (v3 a) = Ok n /\ vec_neg 3 n = Ok (v3 (cross3 a b))) /\
  vec_squared_length 3 (v3 (cross3 a b)) =
    Ok (dot3 a a * dot3 b b - dot3 a b * dot3 a b)%R /\
  dot3 a (cross3 b c) = dot3 b (cross3 c a) /\
  cross3 a (cross3 b c) = sub3 (scale3 (dot3 a c) b) (scale3 (dot3 a b) c) /\
  add3 (add3 (cross3 a (cross3 b c)) (cross3 b (cross3 c a))) (cross3 c (cross3 a b)) = zero3.
Proof.
  intros cfg lim a b c. split; [apply vec_cross_v3|].
  rewrite !vec_dot_v3, (vec_squared_length_R 3 _ _ (v3_rep (cross3 a b))), dotR_3, (vec_cross_v3 b a).
  destruct a as [[a0 a1] a2], b as [[b0 b1] b2], c as [[c0 c1] c2]. cbn.
  split; [f_equal; ring|]. split; [f_equal; ring|]. split.
  { eexists; split; [reflexivity|]. cbn. f_equal; f_equal; [ring|]. f_equal; [ring|]. f_equal; ring. }
  split; [f_equal; ring|]. split; [ring|]. unfold zero3.
  split; (apply f_equal2; [apply f_equal2|]); ring.
Qed.
Print Assumptions C38_cross.

(** C38 for every element type: component formulas, and the target of
    cross( a, b ) may be any third vector. *)
Theorem C38_cross_components :
  forall (cfg : Cfg) (T : Type) (ST : Scalar T) (a0 a1 a2 b0 b1 b2 t0 t1 t2 : T),
  vec_cross_into [t0; t1; t2] (Val [a0; a1; a2]) (Val [b0; b1; b2]) =
  Ok [ssub (smul a1 b2) (smul a2 b1); ssub (smul a2 b0) (smul a0 b2); ssub (smul a0 b1) (smul a1 b0)].
Proof. reflexivity. Qed.
Print Assumptions C38_cross_components.

(** C39 is false of the code: storing the product into an operand overwrites
    components that are still needed.  With a = (1,2,3) and b = (4,5,6) the
    product is (-3,6,-3), but a.cross( a, b ) and b.cross( a, b ) leave something
    else. *)
Theorem C39_cross_aliasing_refuted :
  forall cfg : Cfg,
  let ST := ZScalar in
  let a := [1; 2; 3]%Z in let b := [4; 5; 6]%Z in
  vec_cross a b = Ok [-3; 6; -3]%Z /\
  vec_cross_into a Self (Val b) = Ok [-3; 30; -135]%Z /\
  vec_cross_into b (Val a) Self = Ok [-3; -15; -9]%Z.
Proof. intros cfg. repeat split; reflexivity. Qed.
Print Assumptions C39_cross_aliasing_refuted.

(** C39, what the code computes over the reals when the left (right) operand is
    the target: right exactly when these extra conditions hold. *)
Theorem C39_cross_aliasing_partial :
  forall (cfg : Cfg) (lim : RLim) (a b : V3),
  let '(a0, a1, a2) := a in let '(b0, b1, b2) := b in
  let x := (a1 * b2 - a2 * b1)%R in
  (vec_cross_into (v3 a) (Val (v3 a)) (Val (v3 b)) = Ok (v3 (cross3 a b))) /\
  (vec_cross_into (v3 a) Self (Val (v3 b)) = Ok (v3 (cross3 a b)) <->
     (x = a0 \/ b2 = 0) /\ (x * b1 - (a2 * b0 - x * b2) * b0 = a0 * b1 - a1 * b0))%R.
Proof.
  intros cfg lim [[a0 a1] a2] [[b0 b1] b2] x. split; [reflexivity|]. cbn. fold x.
  split.
  - intros H. injection H as H1 H2. split; [|lra].
    assert (K : ((x - a0) * b2 = 0)%R) by lra. apply Rmult_integral in K. lra.
  - intros [[E|E] H]; f_equal; f_equal; f_equal; try (rewrite E; ring); f_equal; lra.
Qed.
Print Assumptions C39_cross_aliasing_partial.

(** C40.  compute_normal: unit normal of the triangle (a,b,c); the target may
    be one of the vertices. *)
Theorem C40_compute_normal :
  forall (cfg : Cfg) (lim : RLim) (t a b c : V3),
  let n := cross3 (sub3 b a) (sub3 c a) in
  (n <> zero3 ->
   exists m : V3,
     vec_compute_normal (v3 a) (v3 b) (v3 c) = Ok (v3 m) /\
     vec_compute_normal_into (v3 t) (Val (v3 a)) (Val (v3 b)) (Val (v3 c)) = Ok (v3 m) /\
     vec_compute_normal_into (v3 a) Self (Val (v3 b)) (Val (v3 c)) = Ok (v3 m) /\
     vec_compute_normal_into (v3 b) (Val (v3 a)) Self (Val (v3 c)) = Ok (v3 m) /\
     vec_compute_normal_into (v3 c) (Val (v3 a)) (Val (v3 b)) Self = Ok (v3 m) /\
     len3R m = 1%R /\ dot3 m (sub3 b a) = 0%R /\ dot3 m (sub3 c a) = 0%R /\
     (0 < dot3 m n)%R (* counter-clockwise side *)) /\
  (n = zero3 -> vec_compute_normal (v3 a) (v3 b) (v3 c) = Ok (v3 zero3)).
Proof.
  intros cfg lim t a b c n. split.
  - intros Hn. assert (HL : len3R n <> 0%R) by (rewrite len3_zero; exact Hn).
    assert (K : forall t, vec_compute_normal_into (v3 t) (Val (v3 a)) (Val (v3 b)) (Val (v3 c)) =
                          Ok (v3 (scale3 (/ len3R n) n))).
    { intros t'. unfold vec_compute_normal_into; cbn [argl]. rewrite !vec_sub_v3. cbn [bind].
      rewrite vec_cross_into_v3. cbn [bind]. fold n. rewrite vec_normalize_v3 by exact HL. reflexivity. }
    exists (scale3 (/ len3R n) n). repeat split; try apply K.
    + apply (K zero3).
    + apply len3_unit; exact HL.
    + subst n. destruct a as [[a0 a1] a2], b as [[b0 b1] b2], c as [[c0 c1] c2]. cbn. ring.
    + subst n. destruct a as [[a0 a1] a2], b as [[b0 b1] b2], c as [[c0 c1] c2]. cbn. ring.
    + replace (dot3 (scale3 (/ len3R n) n) n) with (/ len3R n * dot3 n n)%R
        by (destruct n as [[n0 n1] n2]; cbn; ring).
      rewrite <- len3_sq. pose proof (len3_nonneg n).
      replace (/ len3R n * (len3R n * len3R n))%R with (len3R n) by (field; exact HL). lra.
  - intros Hn. unfold vec_compute_normal, vec_compute_normal_into; cbn [argl].
    rewrite !vec_sub_v3. cbn [bind]. change (vec_default 3) with (v3 zero3).
    rewrite vec_cross_into_v3. cbn [bind]. fold n. rewrite Hn, vec_normalize_v3_zero; [reflexivity|].
    apply len3_zero; reflexivity.
Qed.
Print Assumptions C40_compute_normal.

Example C40_hypotheses_met : (cross3 (sub3 (1, 0, 0) (0, 0, 0)) (sub3 (0, 1, 0) (0, 0, 0)) <> zero3)%R.
Proof. unfold zero3; cbn. intros H; injection H; intros; lra. Qed.

(** C41.  Vector::rotate is Rodrigues' rotation about the normalised axis. *)
Theorem C41_rotate :
  forall (cfg : Cfg) (lim : RLim) (v axis : V3) (t : R),
  axis <> zero3 ->
  vec_rotate (v3 v) t (v3 axis) = Ok (v3 (rodrigues (scale3 (/ len3R axis) axis) t v)).
Proof.
  exact rotate_is_rodrigues.
Qed.
Print Assumptions C41_rotate.

(** C41, consequences: isometry, fixed axis, additive in the angle, full turn. *)
Theorem C41_rotate_laws :
  forall (cfg : Cfg) (lim : RLim) (axis : V3), axis <> zero3 ->
  forall (t s : R) (v w : V3),
  exists v' w' : V3,
  vec_rotate (v3 v) t (v3 axis) = Ok (v3 v') /\
  vec_rotate (v3 w) t (v3 axis) = Ok (v3 w') /\
  dot3 v' w' = dot3 v w /\ len3R v' = len3R v /\
  dot3 v' axis = dot3 v axis /\
  vec_rotate (v3 v') s (v3 axis) = vec_rotate (v3 v) (s + t)%R (v3 axis) /\
  vec_rotate (v3 v') (- t)%R (v3 axis) = Ok (v3 v) /\
  (forall k : R, vec_rotate (v3 (scale3 k axis)) t (v3 axis) = Ok (v3 (scale3 k axis))) /\
  (forall k : R, (0 < k)%R -> vec_rotate (v3 v) t (v3 (scale3 k axis)) = Ok (v3 v')).
Proof.
  exact rotate_consequences.
Qed.
Print Assumptions C41_rotate_laws.

(** C42.  operator< is the lexicographic comparison, for every element type... *)
Theorem C42_less_is_lexicographic :
  forall (cfg : Cfg) (T : Type) (ST : Scalar T) (M : nat) (u v : list T) (fu fv : nat -> T),
  repV M u fu -> repV M v fv ->
  exists b, vec_less M u v = Ok b /\
  (b = true <->
   exists k, k < M /\ sltb (fu k) (fv k) = true /\
     forall i, i < k -> sltb (fu i) (fv i) = false /\ sltb (fv i) (fu i) = false).
Proof. exact (@vec_less_spec). Qed.
Print Assumptions C42_less_is_lexicographic.

(** ...and a strict weak order whenever < is one on the components: irreflexive,
    transitive, and incomparability is component-wise. *)
Theorem C42_less_strict_weak_order :
  forall (cfg : Cfg) (T : Type) (ST : Scalar T) (good : T -> Prop) (M : nat),
  strict_weak good sltb ->
  forall u v w : list T,
  length u = M -> length v = M -> length w = M ->
  Forall good u -> Forall good v -> Forall good w ->
  vec_less M u u = Ok false /\
  (vec_less M u v = Ok true -> vec_less M v u = Ok false) /\
  (vec_less M u v = Ok true -> vec_less M v w = Ok true -> vec_less M u w = Ok true) /\
  (vec_less M u w = Ok true -> vec_less M u v = Ok true \/ vec_less M v w = Ok true) /\
  (vec_less M u v = Ok false -> vec_less M v u = Ok false ->
   forall i a b, nth_error u i = Some a -> nth_error v i = Some b ->
     sltb a b = false /\ sltb b a = false).
Proof.
  exact vec_less_strict_weak.
Qed.
Print Assumptions C42_less_strict_weak_order.

(** The hypothesis holds of reals, of unsigned integers and of doubles other
    than NaN. *)
Theorem C42_scalar_orders :
  forall lim : RLim,
  strict_weak (fun _ => True) (@sltb R RScalar) /\
  (forall k, strict_weak (fun _ => True) (@sltb Z (UIntScalar k))) /\
  (forall k, strict_weak (fun x => x <> None) (@sltb (option Z) (SIntScalar k))) /\
  strict_weak (fun x : f64 => is_nan 53 1024 x = false) (@sltb f64 F64Scalar).
Proof.
  intros lim. split; [exact R_strict_weak|]. split; [exact UInt_strict_weak|].
  split; [exact SInt_strict_weak|exact f64_strict_weak].
Qed.
Print Assumptions C42_scalar_orders.

(** For a totally ordered element type, two vectors neither of which is less are
    equal. *)
Theorem C42_less_total :
  forall (cfg : Cfg) (T : Type) (ST : Scalar T) (M : nat) (u v : list T),
  (forall a b : T, sltb a b = false -> sltb b a = false -> a = b) ->
  length u = M -> length v = M ->
  vec_less M u v = Ok false -> vec_less M v u = Ok false -> u = v.
Proof.
  exact vec_less_total.
Qed.
Print Assumptions C42_less_total.

Example C42_hypotheses_met :
  let cfg := {| safe := false |} in let ST := UIntScalar 32 in
  vec_less 3 [1; 7; 2]%Z [1; 7; 3]%Z = Ok true /\
  forall a b : Z, sltb a b = false -> sltb b a = false -> a = b.
Proof. cbn. split; [reflexivity|]. intros a b Ha Hb. apply Z.ltb_ge in Ha, Hb. lia. Qed.

(** C43 is false: with NaN components operator< is not transitive (so it must
    not be used as a std::map key order on such vectors). *)
Theorem C43_less_with_nan_refuted :
  forall cfg : Cfg,
  let ST := F64Scalar in
  exists u v w : list f64,
  length u = 2 /\ length v = 2 /\ length w = 2 /\
  vec_less 2 u v = Ok true /\ vec_less 2 v w = Ok true /\ vec_less 2 u w = Ok false.
Proof.
  intros cfg ST. exists [f64_nan; f64_one], [f64_zero; f64_two], [f64_one; f64_zero].
  repeat split; destruct cfg as [[|]]; vm_compute; reflexivity.
Qed.
Print Assumptions C43_less_with_nan_refuted.

(** C43, what remains true of all doubles, NaN included: irreflexive and
    asymmetric; and the full strict weak order without NaN. *)
Theorem C43_less_with_nan_partial :
  forall (cfg : Cfg) (M : nat), let ST := F64Scalar in
  forall u v w : list f64, length u = M -> length v = M -> length w = M ->
  vec_less M u u = Ok false /\
  (vec_less M u v = Ok true -> vec_less M v u = Ok false) /\
  (Forall (fun x => is_nan 53 1024 x = false) u ->
   Forall (fun x => is_nan 53 1024 x = false) v ->
   Forall (fun x => is_nan 53 1024 x = false) w ->
   vec_less M u v = Ok true -> vec_less M v w = Ok true -> vec_less M u w = Ok true).
Proof.
  exact vec_less_f64.
Qed.
Print Assumptions C43_less_with_nan_partial.

(** C44.  operator== on doubles is identity of bit patterns, hence an
    equivalence relation, and operator!= is its negation. *)
Theorem C44_eq_bits_f64 :
  let ST := F64Scalar in
  (forall u v : list f64, vec_eq u v = true <-> map bits_of_b64 u = map bits_of_b64 v) /\
  (forall u v : list f64, vec_eq u v = true <-> u = v) /\
  (forall u v : list f64, vec_neq u v = negb (vec_eq u v)).
Proof.
  intros ST.
  assert (K : forall u v : list f64, vec_eq u v = true <-> u = v).
  { induction u as [|a u IH]; intros [|b v]; cbn; split; try discriminate; auto.
    - rewrite andb_true_iff. intros [H1 H2]. apply Z.eqb_eq, bits_inj in H1. apply IH in H2. congruence.
    - intros E; injection E as -> ->. rewrite andb_true_iff. split; [apply Z.eqb_refl|apply IH; reflexivity]. }
  split; [|split; [exact K|reflexivity]].
  intros u v. rewrite K. split; [intros ->; reflexivity|].
  revert v; induction u as [|a u IH]; intros [|b v]; cbn; try discriminate; auto.
  intros E; injection E as E1 E2. apply bits_inj in E1. f_equal; auto.
Qed.
Print Assumptions C44_eq_bits_f64.

(** C44: +0 and -0 differ although the components compare equal, NaN equals
    itself although the component does not. *)
Theorem C44_zero_and_nan :
  let ST := F64Scalar in
  vec_eq [f64_zero] [f64_neg_zero] = false /\ seqb f64_zero f64_neg_zero = true /\
  vec_eq [f64_nan] [f64_nan] = true /\ seqb f64_nan f64_nan = false.
Proof. vm_compute. repeat split. Qed.
Print Assumptions C44_zero_and_nan.

(** C44 for integers: component-wise equality. *)
Theorem C44_eq_int :
  forall (k : Z) (u v : list Z), let ST := UIntScalar k in
  (vec_eq u v = true <-> u = v) /\ vec_neq u v = negb (vec_eq u v).
Proof.
  intros k u v ST. split; [|reflexivity].
  revert v; induction u as [|a u IH]; intros [|b v]; cbn; split; try discriminate; auto.
  - rewrite andb_true_iff. intros [H1 H2]. apply Z.eqb_eq in H1. apply IH in H2. congruence.
  - intros E; injection E as -> ->. rewrite andb_true_iff. split; [apply Z.eqb_refl|apply IH; reflexivity].
Qed.
Print Assumptions C44_eq_int.

(** C45.  equals( other, tol ) over the reals. *)
Theorem C45_equals :
  forall (cfg : Cfg) (lim : RLim) (M : nat) (u v : list R) (fu fv : nat -> R) (tol : R),
  repV M u fu -> repV M v fv ->
  exists b, vec_equals M u v tol = Ok b /\
  (b = true <-> forall i, i < M -> (Rabs (fu i - fv i) < tol)%R) /\
  vec_equals M v u tol = Ok b /\
  ((0 < tol)%R -> vec_equals M u u tol = Ok true) /\
  vec_equals_default M u u = Ok true.
Proof.
  intros cfg lim M u v fu fv tol Hu Hv.
  assert (K : forall a b fa fb t, repV M a fa -> repV M b fb ->
     returns (vec_equals M a b t) (fun x => x = true <-> forall i, i < M -> (Rabs (fa i - fb i) < t)%R)).
  { intros a b fa fb t Ha Hb. eapply returns_impl; [apply (vec_equals_spec M a b fa fb t Ha Hb)|].
    intros x Hx. rewrite Hx. cbn. split; intros H i Hi; specialize (H i Hi).
    - destruct (Rleb_spec t (Rabs (fa i - fb i))); [discriminate|lra].
    - apply Rleb_false; exact H. }
  destruct (K u v fu fv tol Hu Hv) as (b & Eb & Hb). exists b. split; [exact Eb|]. split; [exact Hb|].
  assert (S : forall t, (0 < t)%R -> vec_equals M u u t = Ok true).
  { intros t Ht. destruct (K u u fu fu t Hu Hu) as (x & Ex & Hx). rewrite Ex. f_equal. apply Hx.
    intros i Hi. replace (fu i - fu i)%R with 0%R by ring. rewrite Rabs_R0; exact Ht. }
  split; [|split; [apply S|apply S; apply reps_pos]].
  destruct (K v u fv fu tol Hv Hu) as (b' & Eb' & Hb'). rewrite Eb'. f_equal.
  apply eq_true_iff_eq. rewrite Hb', Hb. split; intros H i Hi; rewrite Rabs_minus_sym; apply H; exact Hi.
Qed.
Print Assumptions C45_equals.

(** C103 is false for integer element types with the default tolerance: epsilon()
    is 0, so a non-empty integer vector never equals itself. *)
Theorem C103_equals_default_int_refuted :
  forall (cfg : Cfg) (k : Z) (M : nat) (u : list Z), let ST := UIntScalar k in
  (0 < M) -> length u = M -> vec_equals_default M u u = Ok false.
Proof.
  intros cfg k M u ST HM Lu. pose proof (repV_nth M u 0%Z Lu) as Hu.
  destruct (vec_equals_spec M u u _ _ (@seps _ ST) Hu Hu) as (b & Eb & Hb).
  unfold vec_equals_default. rewrite Eb. f_equal. destruct b; auto.
  pose proof (proj1 Hb eq_refl 0 HM) as K. cbn in K.
  rewrite Z.sub_diag in K. rewrite Zmod_0_l in K. discriminate.
Qed.
Print Assumptions C103_equals_default_int_refuted.

(** C103: a NaN component compares equal to everything, under every tolerance. *)
Theorem C103_equals_nan_refuted :
  forall (cfg : Cfg) (x tol : f64), let ST := F64Scalar in
  vec_equals 1 [f64_nan] [x] tol = Ok true.
Proof.
  intros cfg x tol ST. destruct x; cbn; destruct tol; cbn; reflexivity.
Qed.
Print Assumptions C103_equals_nan_refuted.
