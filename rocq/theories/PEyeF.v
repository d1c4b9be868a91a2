(** Property C222: culling with a double view matrix built by a history of calls. *)
From Coq Require Import ZArith Reals Lra Psatz List.
From Flocq Require Import Core.Core IEEE754.BinarySingleNaN IEEE754.Binary IEEE754.Bits.
From Verif Require Import InstF MMatrix LBase LVector LVectorR LVecProps2 LMatrix LMat4 MFrustum Spec Spec3 Spec4 Spec11 Spec13 Spec14 Spec16 Spec17 Spec18 LSum LWorld LEdit LEye PCuller PFloat LFloat PFloat2 LErr PCuller3 PCuller4 PMatrix3 PRayF PQrF PQrO PChain LRot PRotF PMoveF PEditF PWorldF.
Import ListNotations.
Local Open Scope R_scope.
Local Open Scope list_scope.
Local Existing Instance F64Scalar.
Local Notation bp := (bpow radix2).
Local Notation frobR := Spec14.frobR.

(** The faces of the exact volume are regular: their normals are not tiny, not
    much smaller than their terms, and the history's error does not swamp them. *)
Definition eye_regular (P : list f64) (B e : R) (F : list hs) : Prop :=
  forall h, In h F -> / 2 ^ 139 <= len3R (fst h) /\ blowup (frobR 4 (mcells 4 P)) B h <= 2 ^ 36 /\
    200 * (e * blowup (frobR 4 (mcells 4 P)) B h) <= 1.

Lemma le3_ball c r q : in_ball c r q -> le3 q (ball_reach c r).
Proof.
  destruct c as [[x y] z], q as [[a b] c]. unfold in_ball, dist3. intros H. unfold le3, ball_reach.
  rewrite !(Rabs_pos_eq (_ + Rabs r)) by (apply Rplus_le_le_0_compat; apply Rabs_pos). pose proof (Rle_abs r) as HR.
  assert (T : forall m n, Rabs (m - n) <= r -> Rabs m <= Rabs n + Rabs r).
  { intros m n Hd. replace m with (n + (m - n)) by ring. eapply Rle_trans; [apply Rabs_triang|]. lra. }
  assert (C : Rabs (a - x) <= r /\ Rabs (b - y) <= r /\ Rabs (c - z) <= r).
  { unfold len3R, sub3, dot3 in H.
    assert (Q : forall m, 0 <= m * m) by (intros m; exact (Rle_0_sqr m)). pose proof (Q (a - x)). pose proof (Q (b - y)). pose proof (Q (c - z)).
    repeat split; eapply Rle_trans; try exact H; rewrite <- sqrt_Rsqr_abs; apply sqrt_le_1_alt; unfold Rsqr; lra. }
  destruct C as (C1 & C2 & C3). repeat split; apply T; assumption.
Qed.
Lemma le3_center c r : le3 c (ball_reach c r).
Proof.
  destruct c as [[x y] z]. unfold le3, ball_reach. rewrite !(Rabs_pos_eq (_ + Rabs r)) by (apply Rplus_le_le_0_compat; apply Rabs_pos). pose proof (Rabs_pos r). lra.
Qed.
(** A face of the volume of the computed product against the exact face. *)
Definition eye_near (B e : R) (P : list f64) (f : hs * hs) (h : hs) : Prop :=
  / 2 ^ 140 <= len3R (fst (fst f)) /\ wcond f <= 2 ^ 40 /\
  forall q r r0, le3 q r -> le3 r0 r ->
    Rabs (wdist f q - edist h q) + wmargin (/ 2 ^ 53) (/ 2 ^ 920) f r0 <= emargin (/ 2 ^ 53) (/ 2 ^ 920) e (blowup (frobR 4 (mcells 4 P)) B h) r.
Lemma eye_faces (P V : list f64) (X : nat -> nat -> R) (B e : R) : length V = 16%nat -> (forall x, In x V -> fin x) ->
  frobR 4 X <= B -> frobR 4 (fun i j => mcells 4 V i j - X i j) <= e * B -> 0 <= e <= 1 -> B <= 2 ^ 69 ->
  eye_regular P B e (faces (mmulR 4 (mcells 4 P) X)) ->
  mat_range V /\ wregular P V /\ Forall2 (eye_near B e P) (wfaces P V) (faces (mmulR 4 (mcells 4 P) X)).
Proof.
  intros LV FV HX HV He HB HR.
  assert (R1 : mat_range V).
  { split; [exact LV|]. intros x Hx. split; [exact (FV x Hx)|]. destruct (In_nth V x f64_zero Hx) as (n & Hn & <-). rewrite LV in Hn.
    pose proof (V_le (mcells 4 V) X B e HX HV He) as VB.
    pose proof (entry_frob (mcells 4 V) (n mod 4) (n / 4) (Nat.mod_upper_bound n 4 ltac:(lia)) ltac:(apply Nat.div_lt_upper_bound; lia)) as EN.
    unfold mcells in EN at 1. replace (n / 4 * 4 + n mod 4)%nat with n in EN by (pose proof (Nat.div_mod n 4 ltac:(lia)); lia).
    replace (2 ^ 70) with (2 * 2 ^ 69) by ring. lra. }
  assert (N : forall s k, s = 1 \/ s = -1 -> (k < 4)%nat -> In (face (mmulR 4 (mcells 4 P) X) s k) (faces (mmulR 4 (mcells 4 P) X)) ->
    eye_near B e P (face (mmulR 4 (mcells 4 P) (mcells 4 V)) s k, face (mmulR 4 (absM (mcells 4 P)) (absM (mcells 4 V))) 1 k) (face (mmulR 4 (mcells 4 P) X) s k)).
  { intros s k Hs Hk Hin. destruct (HR _ Hin) as (H1 & H2 & H3). pose proof (inv_small 139) as I139. pose proof (inv_small 53) as I53. pose proof (inv_small 920) as I920.
    assert (HL : 0 < len3R (fst (face (mmulR 4 (mcells 4 P) X) s k))) by lra.
    destruct (len_eye (mcells 4 P) (mcells 4 V) X B e HV s k Hs Hk HL H3) as (L1 & _).
    pose proof (eye_cond (mcells 4 P) (mcells 4 V) X B e HX HV He s k Hs Hk HL H3) as C.
    split; [|split].
    - cbn [fst]. replace (/ 2 ^ 140) with (/ 2 * / 2 ^ 139) by (rewrite (pow_step 139 1 : / 2 ^ 140 = / 2 ^ 139 * / 2 ^ 1); replace (2 ^ 1) with 2 by ring; ring). lra.
    - replace (2 ^ 40) with (16 * 2 ^ 36) by ring. assert (0 < 2 ^ 36) by (apply pow_lt; lra). lra.
    - intros q r r0 Hq H0. apply eye_margin; first [assumption|lra]. }
  assert (F2 : Forall2 (eye_near B e P) (wfaces P V) (faces (mmulR 4 (mcells 4 P) X))).
  { unfold wfaces, world_faces, faces. unfold faces in N. repeat (apply Forall2_cons; [apply N; [auto|lia|cbn [In]; tauto]|]). apply Forall2_nil. }
  split; [exact R1|]. split; [|exact F2].
  intros f Hf. destruct (Forall2_In_l _ _ _ _ F2 Hf) as (h & _ & A & C & _). split; assumption.
Qed.

(** C222: the view matrix is built by any sequence of transformation calls, is
    multiplied with a projection matrix, and a culler is set up from the product:
    the verdict is right about the volume of the exact projection matrix times
    the exact effect of the calls, up to a margin. *)
Theorem C222_eye_sphere_culling :
  forall (cfg : Cfg) (TT : Trig f64) (d : R) (P m0 : list f64) (l : list edit) (x y z rad : f64),
  0 <= d <= / 100 -> good_trig TT d -> mat_range P -> length m0 = 16%nat -> (forall x, In x m0 -> fin x) -> Forall ok_edit l ->
  sane x -> sane y -> sane z -> sane rad ->
  let e := 2 * INR (length l) * (2 * d + 43 / 10 / 2 ^ 53) in
  let B := reachR (map real_edit l) (frobR 4 (mcells 4 m0) + / 2 ^ 1000) in
  let F := faces (mmulR 4 (mcells 4 P) (historyR (map real_edit l) (mcells 4 m0))) in
  e <= 1 -> B <= 2 ^ 69 -> eye_regular P B e F ->
  let c := (val x, val y, val z) in
  let mg := fun h => emargin (/ 2 ^ 53) (/ 2 ^ 920) e (blowup (frobR 4 (mcells 4 P)) B h) (ball_reach c (val rad)) in
  exists V m cl v, edit_all m0 l = Ok V /\ mat_mul 4 4 4 P V = Ok m /\ fc_setup m = Ok cl /\ fc_test_sphere cl [x; y; z; rad] = Ok v /\
  (v = V_NONE -> exists h, In h F /\ forall q, in_ball c (val rad) q -> edist h q <= mg h) /\
  (v = V_FULL -> forall h q, In h F -> in_ball c (val rad) q -> - mg h <= edist h q) /\
  (forall q, in_ball c (val rad) q -> (forall h, In h F -> mg h < edist h q) -> v <> V_NONE) /\
  ((exists h, In h F /\ edist h c <= - val rad - mg h) -> v = V_NONE) /\
  (0 < val rad -> (forall h, In h F -> val rad + mg h <= edist h c) -> v = V_FULL).
Proof.
  intros cfg TT d P m0 l x y z rad Hd HT HP L0 F0 HO Hx Hy Hz Hr e B F He HB HR c mg.
  assert (B1000 : B <= 2 ^ 1000) by (eapply Rle_trans; [exact HB|]; apply Rle_pow; [lra|lia]).
  destruct (C220_transformation_histories cfg TT d m0 l Hd HT L0 F0 HO He B1000) as (V & EV & LV & FV & HX & HV).
  fold B in HX, HV. fold e in HV. set (X := historyR (map real_edit l) (mcells 4 m0)) in *.
  assert (He0 : 0 <= e). { unfold e. apply Rmult_le_pos; [pose proof (pos_INR (length l)); lra|]. pose proof (inv_small 53). lra. }
  destruct (eye_faces P V X B e LV FV HX HV (conj He0 He) HB HR) as (RV & WR & F2). fold F in F2.
  destruct (C218_world_sphere_culling cfg P V x y z rad HP RV WR Hx Hy Hz Hr) as (m & cl & v & Em & Ec & Ev & C1 & C2 & C3 & C4 & C5). fold c in C1, C2, C3, C4, C5.
  cbv beta in C1, C2, C3, C4, C5.
  assert (NR : forall f h, eye_near B e P f h -> (forall q, in_ball c (val rad) q -> Rabs (wdist f q - edist h q) + wmargin (/ 2 ^ 53) (/ 2 ^ 920) f c <= mg h) /\ Rabs (wdist f c - edist h c) + wmargin (/ 2 ^ 53) (/ 2 ^ 920) f c <= mg h).
  { intros f h (_ & _ & H). split.
    - intros q Hq. apply H; [apply le3_ball; exact Hq|apply le3_center].
    - apply H; apply le3_center. }
  assert (AB : forall a, a <= Rabs a /\ - a <= Rabs a) by (intros a; split; [apply Rle_abs|rewrite <- Rabs_Ropp; apply Rle_abs]).
  exists V, m, cl, v. repeat (split; [assumption|]). split; [|split; [|split; [|split]]].
  - intros Hv. destruct (C1 Hv) as (f & Hf & H). destruct (Forall2_In_l _ _ _ _ F2 Hf) as (h & Hh & W). destruct (NR f h W) as (N & _).
    exists h. split; [exact Hh|]. intros q Hq. pose proof (H q Hq). pose proof (N q Hq). pose proof (AB (wdist f q - edist h q)). lra.
  - intros Hv h q Hh Hq. destruct (Forall2_In_r _ _ _ _ F2 Hh) as (f & Hf & W). destruct (NR f h W) as (N & _).
    pose proof (C2 Hv f q Hf Hq). pose proof (N q Hq). pose proof (AB (wdist f q - edist h q)). lra.
  - intros q Hq H. apply (C3 q Hq). intros f Hf. destruct (Forall2_In_l _ _ _ _ F2 Hf) as (h & Hh & W). destruct (NR f h W) as (N & _).
    pose proof (H h Hh). pose proof (N q Hq). pose proof (AB (wdist f q - edist h q)). lra.
  - intros (h & Hh & H). apply C4. destruct (Forall2_In_r _ _ _ _ F2 Hh) as (f & Hf & W). destruct (NR f h W) as (_ & N).
    exists f. split; [exact Hf|]. pose proof (AB (wdist f c - edist h c)). lra.
  - intros Hp H. apply (C5 Hp). intros f Hf. destruct (Forall2_In_l _ _ _ _ F2 Hf) as (h & Hh & W). destruct (NR f h W) as (_ & N).
    pose proof (H h Hh). pose proof (AB (wdist f c - edist h c)). lra.
Qed.
Print Assumptions C222_eye_sphere_culling.
Theorem C222_eye_box_culling :
  forall (cfg : Cfg) (TT : Trig f64) (d : R) (P m0 : list f64) (l : list edit) (x0 x1 y0 y1 z0 z1 : f64),
  0 <= d <= / 100 -> good_trig TT d -> mat_range P -> length m0 = 16%nat -> (forall x, In x m0 -> fin x) -> Forall ok_edit l ->
  sane x0 -> sane x1 -> sane y0 -> sane y1 -> sane z0 -> sane z1 ->
  let e := 2 * INR (length l) * (2 * d + 43 / 10 / 2 ^ 53) in
  let B := reachR (map real_edit l) (frobR 4 (mcells 4 m0) + / 2 ^ 1000) in
  let F := faces (mmulR 4 (mcells 4 P) (historyR (map real_edit l) (mcells 4 m0))) in
  e <= 1 -> B <= 2 ^ 69 -> eye_regular P B e F ->
  let box := in_span (val x0) (val x1) (val y0) (val y1) (val z0) (val z1) in
  let mg := fun h => emargin (/ 2 ^ 53) (/ 2 ^ 920) e (blowup (frobR 4 (mcells 4 P)) B h) (reach (val x0) (val x1), reach (val y0) (val y1), reach (val z0) (val z1)) in
  exists V m cl v, edit_all m0 l = Ok V /\ mat_mul 4 4 4 P V = Ok m /\ fc_setup m = Ok cl /\ fc_test_aabb cl [x0; x1] [y0; y1] [z0; z1] = Ok v /\
  (v = V_NONE -> exists h, In h F /\ forall q, box q -> edist h q <= mg h) /\
  (v = V_FULL -> forall h q, In h F -> box q -> - mg h <= edist h q) /\
  (forall q, box q -> (forall h, In h F -> mg h < edist h q) -> v <> V_NONE) /\
  ((exists h, In h F /\ forall q, box q -> edist h q < - mg h) -> v = V_NONE) /\
  ((forall h q, In h F -> box q -> mg h <= edist h q) -> v = V_FULL).
Proof.
  intros cfg TT d P m0 l x0 x1 y0 y1 z0 z1 Hd HT HP L0 F0 HO X0 X1 Y0 Y1 Z0 Z1 e B F He HB HR box mg.
  assert (B1000 : B <= 2 ^ 1000) by (eapply Rle_trans; [exact HB|]; apply Rle_pow; [lra|lia]).
  destruct (C220_transformation_histories cfg TT d m0 l Hd HT L0 F0 HO He B1000) as (V & EV & LV & FV & HX & HV).
  fold B in HX, HV. fold e in HV. set (X := historyR (map real_edit l) (mcells 4 m0)) in *.
  assert (He0 : 0 <= e). { unfold e. apply Rmult_le_pos; [pose proof (pos_INR (length l)); lra|]. pose proof (inv_small 53). lra. }
  destruct (eye_faces P V X B e LV FV HX HV (conj He0 He) HB HR) as (RV & WR & F2). fold F in F2.
  destruct (C218_world_box_culling cfg P V x0 x1 y0 y1 z0 z1 HP RV WR X0 X1 Y0 Y1 Z0 Z1) as (m & cl & v & Em & Ec & Ev & C1 & C2 & C3 & C4 & C5). fold box in C1, C2, C3, C4, C5.
  cbv beta in C1, C2, C3, C4, C5.
  assert (NR : forall f h, eye_near B e P f h -> forall q, box q -> Rabs (wdist f q - edist h q) + wmargin (/ 2 ^ 53) (/ 2 ^ 920) f (reach (val x0) (val x1), reach (val y0) (val y1), reach (val z0) (val z1)) <= mg h).
  { intros f h (_ & _ & H) q Hq. apply H; [apply le3_reach; exact Hq|apply le3_refl]. }
  assert (AB : forall a, a <= Rabs a /\ - a <= Rabs a) by (intros a; split; [apply Rle_abs|rewrite <- Rabs_Ropp; apply Rle_abs]).
  exists V, m, cl, v. repeat (split; [assumption|]). split; [|split; [|split; [|split]]].
  - intros Hv. destruct (C1 Hv) as (f & Hf & H). destruct (Forall2_In_l _ _ _ _ F2 Hf) as (h & Hh & W). pose proof (NR f h W) as N.
    exists h. split; [exact Hh|]. intros q Hq. pose proof (H q Hq) as H'. pose proof (N q Hq). pose proof (AB (wdist f q - edist h q)). lra.
  - intros Hv h q Hh Hq. destruct (Forall2_In_r _ _ _ _ F2 Hh) as (f & Hf & W). pose proof (NR f h W) as N.
    pose proof (C2 Hv f q Hf Hq). pose proof (N q Hq). pose proof (AB (wdist f q - edist h q)). lra.
  - intros q Hq H. apply (C3 q Hq). intros f Hf. destruct (Forall2_In_l _ _ _ _ F2 Hf) as (h & Hh & W). pose proof (NR f h W) as N.
    pose proof (H h Hh). pose proof (N q Hq). pose proof (AB (wdist f q - edist h q)). lra.
  - intros (h & Hh & H). apply C4. destruct (Forall2_In_r _ _ _ _ F2 Hh) as (f & Hf & W). pose proof (NR f h W) as N.
    exists f. split; [exact Hf|]. intros q Hq. pose proof (H q Hq). pose proof (N q Hq). pose proof (AB (wdist f q - edist h q)). lra.
  - intros H. apply C5. intros f q Hf Hq. destruct (Forall2_In_l _ _ _ _ F2 Hf) as (h & Hh & W). pose proof (NR f h W) as N.
    pose proof (H h q Hh Hq). pose proof (N q Hq). pose proof (AB (wdist f q - edist h q)). lra.
Qed.
Print Assumptions C222_eye_box_culling.

(** The example projection of C218 and a view matrix made by three calls. *)
Definition exh : list edit := [ESetTr (f64_one, f64_zero, b64_opp f64_two); EMove (Pre, AZ, f64_one); EScale (f64_two, f64_two, f64_two)].
Example C222_hypotheses_met :
  let e := 2 * INR (length exh) * (2 * / 2 ^ 52 + 43 / 10 / 2 ^ 53) in
  let B := reachR (map real_edit exh) (frobR 4 (mcells 4 id64) + / 2 ^ 1000) in
  good_trig grid_trig (/ 2 ^ 52) /\ mat_range exP /\ length id64 = 16%nat /\ (forall x, In x id64 -> fin x) /\ Forall ok_edit exh /\
  sane f64_one /\ sane f64_half /\ e <= 1 /\ B <= 2 ^ 69 /\
  eye_regular exP B e (faces (mmulR 4 (mcells 4 exP) (historyR (map real_edit exh) (mcells 4 id64)))).
Proof.
  intros e B. destruct exvals as (V1 & V2). assert (Z0 : val f64_zero = 0) by reflexivity.
  assert (FI : forall x, In x id64 -> fin x). { intros x Hx. cbn -[f64_one f64_zero] in Hx. repeat (destruct Hx as [<-|Hx]; [reflexivity|]). destruct Hx. }
  assert (He : 0 <= e <= / 1000000).
  { unfold e, exh. cbn [length]. rewrite INR_IZR_INZ. change (Z.of_nat 3) with 3%Z. assert (0 < / 2 ^ 52 <= / 1000000000) by (split; [apply pow_pos_inv|apply Rinv_le_contravar; lra]).
    assert (0 < / 2 ^ 53 <= / 1000000000) by (split; [apply pow_pos_inv|apply Rinv_le_contravar; lra]). lra. }
  assert (A1 : Rabs (-1) = 1) by (unfold Rabs; destruct (Rcase_abs (-1)); lra). assert (A2 : Rabs (-2) = 2) by (unfold Rabs; destruct (Rcase_abs (-2)); lra). assert (A3 : Rabs 2 = 2) by (apply Rabs_pos_eq; lra).
  assert (HB : 0 <= B <= 11).
  { assert (F2 : frobR 4 (mcells 4 id64) = 2). { apply C214_hypotheses_met. }
    assert (P : 0 < / 2 ^ 1000 <= / 1024). { split; [apply pow_pos_inv|]. apply Rinv_le_contravar; [lra|]. replace 1024 with (2 ^ 10) by ring. apply Rle_pow; [lra|lia]. }
    unfold B, reachR, exh. cbn [map real_edit fold_left factor offset]. rewrite F2. cbn [val3 max3]. rewrite val_two, val_one, Z0, V2, A2, A3, Rabs_R0, Rabs_R1.
    rewrite (Rmax_left 2 2), (Rmax_left 2 2), (Rmax_right 1 2) by lra. lra. }
  assert (FP : 0 <= frobR 4 (mcells 4 exP) <= 4).
  { split; [apply frob_nonneg|]. unfold Spec14.frobR. rewrite <- (sqrt_square 4) by lra. apply sqrt_le_1_alt.
    unfold mcells. cbn [rsum nth Nat.mul Nat.add exP]. rewrite ?Z0, ?V1, ?V2, ?val_one. lra. }
  split; [exact grid_trig_good|]. split; [split; [reflexivity|intros x H; apply ex_in; left; exact H]|]. split; [reflexivity|]. split; [exact FI|].
  split. { unfold exh. repeat apply Forall_cons; try apply Forall_nil; cbn [ok_edit snd]; repeat split; reflexivity. }
  split; [split; [reflexivity|rewrite val_one, Rabs_R1; apply pow_R1_Rle; lra]|]. split; [apply sane_half|]. split; [lra|].
  split. { apply Rle_trans with (2 ^ 4); [lra|]. apply Rle_pow; [lra|lia]. }
  assert (K : forall n d, 1 <= dot3 n n -> / 2 ^ 139 <= len3R (fst ((n, d) : hs)) /\ blowup (frobR 4 (mcells 4 exP)) B (n, d) <= 2 ^ 36 /\ 200 * (e * blowup (frobR 4 (mcells 4 exP)) B (n, d)) <= 1).
  { intros n d H1. cbn [fst]. assert (L1 : 1 <= len3R n) by (unfold len3R; rewrite <- sqrt_1 at 1; apply sqrt_le_1_alt; exact H1).
    pose proof (inv_small 139). split; [lra|]. assert (I : 0 < / len3R n <= 1) by (split; [apply Rinv_0_lt_compat; lra|rewrite <- Rinv_1; apply Rinv_le_contravar; lra]).
    assert (Q : 0 <= blowup (frobR 4 (mcells 4 exP)) B (n, d) <= 44).
    { unfold blowup. cbn [fst]. assert (0 <= frobR 4 (mcells 4 exP) * B <= 4 * 11) by (split; [apply Rmult_le_pos; lra|apply Rmult_le_compat; lra]).
      split; [apply Rmult_le_pos; lra|]. unfold Rdiv. apply Rle_trans with (4 * 11 * 1); [apply Rmult_le_compat; lra|lra]. }
    split. { apply Rle_trans with (2 ^ 6); [lra|]. apply Rle_pow; [lra|lia]. }
    assert (e * blowup (frobR 4 (mcells 4 exP)) B (n, d) <= / 1000000 * 44) by (apply Rmult_le_compat; lra). lra. }
  set (c := cos (- (1))). set (s := sin (- (1))). assert (SC : s * s + c * c = 1) by (pose proof (sin2_cos2 (- (1))) as H; unfold Rsqr in H; exact H).
  assert (T : forall i j, (i < 4)%nat -> (j < 4)%nat -> mmulR 4 (mcells 4 exP) (historyR (map real_edit exh) (mcells 4 id64)) i j =
    nth j (nth i [[2 * c; - 2 * s; 0; c]; [2 * s; 2 * c; 0; s]; [0; 0; -4; 2]; [0; 0; -2; 2]] []) 0).
  { intros i j Hi Hj. unfold historyR, exh. cbn [map real_edit fold_left fst snd val3].
    change (fst (fst (Pre, AZ, f64_one))) with Pre. rewrite ?val_two, ?val_one, ?Z0, ?V2.
    destruct i as [|[|[|[|i]]]]; try lia; destruct j as [|[|[|[|j]]]]; try lia; unfold mmulR; cbn [rsum editedR moveR comp4 nth Nat.eqb Nat.ltb Nat.leb andb mmulR fst snd];
    unfold mmulR, mcells, axis_rot; cbn -[val f64_one f64_two f64_zero b64_opp Rmult Rplus Ropp cos sin];
    rewrite ?V1, ?V2, ?val_one, ?Z0; fold c s; ring. }
  intros h Hh. unfold faces, face in Hh. rewrite !T in Hh by lia. cbn [nth In] in Hh.
  repeat (destruct Hh as [<-|Hh]; [apply K; cbn [dot3]; lra|]). destruct Hh.
Qed.
