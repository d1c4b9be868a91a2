(** Properties C31, C33, C34, C80: convolution, positive definiteness,
    comparisons, boost.la traits. *)
From Verif Require Export LMat7 MMatrix2 Spec2 InstF LVector2.
Local Open Scope nat_scope.

(** ** C31 *)
Lemma clampZ_spec k n : 0 < n -> clampZ k n = clampI n k /\ clampI n k < n.
Proof.
  intros Hn. unfold clampZ, clampI.
  destruct (Z.ltb_spec k 0); destruct (Z.leb_spec (Z.of_nat n) (if (k <? 0)%Z then 0%Z else k));
    destruct (Z.leb_spec (Z.of_nat n) 0); destruct (Z.leb_spec (Z.of_nat n) k);
    try (destruct (Z.ltb_spec k 0)); split; try lia; f_equal; lia.
Qed.

(** Two nested accumulating loops. *)
Lemma for_sum2 `{RLim} V U (g : nat -> nat -> R) (body : nat -> nat -> R -> res R) :
  (forall j i a, j < V -> i < U -> body j i a = Ok (a + g j i)%R) ->
  for_ 0 V (fun j => for_ 0 U (body j)) 0%R = Ok (rsum V (fun j => rsum U (fun i => g j i))).
Proof.
  intros Hb.
  destruct (for_inv (fun k a => a = rsum k (fun j => rsum U (fun i => g j i))) 0 V (fun j => for_ 0 U (body j)) 0%R)
    as (a & E & ->); [lia|reflexivity| |exact E].
  intros k a Hk ->.
  destruct (for_inv (fun q a => a = (rsum k (fun j => rsum U (fun i => g j i)) + rsum q (fun i => g k i))%R) 0 U (body k)
    (rsum k (fun j => rsum U (fun i => g j i)))) as (a & E & ->); [lia|cbn; ring| |].
  - intros q a Hq ->. rewrite Hb by lia. apply returns_ok. cbn [rsum]. ring.
  - rewrite E. apply returns_ok. reflexivity.
Qed.

Theorem C31_convolve_square_partial :
  forall (cfg : Cfg) (lim : RLim) (n u : nat) (m kernel : list R) (img ker : nat -> nat -> R),
  repM n n m img -> repM u u kernel ker ->
  returns (mat_convolve n n u u m kernel) (fun r => repM n n r (convR n u img ker)).
Proof.
  intros cfg lim n u m kernel img ker Hm Hk. unfold mat_convolve.
  eapply returns_bind; [apply mat_default_spec|]. intros d Hd.
  eapply returns_bind.
  - apply (fill2_rc_all n n d _ (convR n u img ker) (fun y x temp =>
      sum <- for_ 0 u (fun j sum =>
        let srcy := clampZ (Z.of_nat y - Z.of_nat (u / 2) + Z.of_nat j) n in
        for_ 0 u (fun i sum =>
          let srcx := clampZ (Z.of_nat x - Z.of_nat (u / 2) + Z.of_nat i) n in
          k <- mat_at u u kernel j i ;; a <- mat_at n n m srcy srcx ;;
          Ok (sadd sum (smul k a))) sum) szero ;;
      mat_put n n temp y x sum) Hd).
    intros y x t Hy Hx _. cbv zeta. cbn [szero RScalar].
    rewrite (for_sum2 u u (fun j i => ker j i *
        img (clampI n (Z.of_nat y - Z.of_nat (u / 2) + Z.of_nat j)) (clampI n (Z.of_nat x - Z.of_nat (u / 2) + Z.of_nat i)))%R
      (fun j i sum => k <- mat_at u u kernel j i ;;
         a <- mat_at n n m (clampZ (Z.of_nat y - Z.of_nat (u / 2) + Z.of_nat j) n)
                           (clampZ (Z.of_nat x - Z.of_nat (u / 2) + Z.of_nat i) n) ;;
         Ok (sadd sum (smul k a)))).
    + cbn [bind]. apply mat_put_ok; auto.
    + intros j i a Hj Hi. rewrite (mat_at_ok u u kernel ker) by auto. cbn [bind].
      destruct (clampZ_spec (Z.of_nat y - Z.of_nat (u / 2) + Z.of_nat j) n ltac:(lia)) as [-> ?].
      destruct (clampZ_spec (Z.of_nat x - Z.of_nat (u / 2) + Z.of_nat i) n ltac:(lia)) as [-> ?].
      rewrite (mat_at_ok n n m img) by auto. reflexivity.
  - intros t Ht. destruct (mat_assign_spec n n m t img _ Hm Ht) as [E _]. rewrite E. apply returns_ok. exact Ht.
Qed.
Print Assumptions C31_convolve_square_partial.

(** Programs that either throw or return normally. *)
Definition tr {A} (m : res A) (P : A -> Prop) : Prop := m = Throw \/ returns m P.
Lemma tr_bind {A B} (m : res A) (k : A -> res B) P Q :
  tr m P -> (forall a, P a -> tr (k a) Q) -> tr (bind m k) Q.
Proof. intros [->|(a & -> & H)] HK; [left; reflexivity|]. apply HK; exact H. Qed.
Lemma tr_for {S : Type} (Inv : S -> Prop) (body : nat -> S -> res S) : forall n i s,
  Inv s -> (forall k x, Inv x -> tr (body k x) Inv) -> tr (for_n n i body s) Inv.
Proof.
  induction n as [|n IH]; intros i s H0 Hb; cbn [for_n]; [right; apply returns_ok; exact H0|].
  eapply tr_bind; [apply Hb; exact H0|]. intros s' Hs'. apply IH; auto.
Qed.
Lemma for_throw' {S : Type} (Inv : S -> Prop) (body : nat -> S -> res S) lo hi s k :
  Inv s -> (forall k x, Inv x -> tr (body k x) Inv) -> lo <= k < hi -> (forall x, Inv x -> body k x = Throw) ->
  for_ lo hi body s = Throw.
Proof.
  intros H0 Hb Hk HT. apply (for_throw (fun _ => Inv)); [exact H0|intros q x _ Hx; exact (Hb q x Hx)|exists k; auto].
Qed.

Theorem C31_convolve_rectangular_refuted :
  forall (cfg : Cfg) (T : Type) (ST : Scalar T) (M N U V : nat) (m kernel : list T),
  safe = true -> 0 < M -> 0 < N -> 0 < U -> 0 < V ->
  length m = M * N -> length kernel = U * V ->
  M <> N \/ U <> V ->
  mat_convolve M N U V m kernel = Throw.
Proof.
  intros cfg T ST M N U V m kernel Hs HM HN HU HV Hm Hk Hne.
  assert (AT : forall P Q (l : list T) r c, length l = P * Q -> tr (mat_at P Q l r c) (fun _ => True)).
  { intros P Q l r c Hl. destruct (Nat.lt_ge_cases r P), (Nat.lt_ge_cases c Q);
      try (left; apply (proj1 (mat_throw P Q l r c szero ltac:(auto) Hs))).
    destruct (mat_rep P Q l Hl) as (f & R). rewrite (mat_at_ok P Q l f) by auto. right. apply returns_ok; exact I. }
  assert (PT : forall (l : list T) r c x, length l = M * N -> tr (mat_put M N l r c x) (fun l => length l = M * N)).
  { intros l r c x Hl. destruct (Nat.lt_ge_cases r M), (Nat.lt_ge_cases c N);
      try (left; apply (proj2 (mat_throw M N l r c x ltac:(auto) Hs))).
    right. rewrite mat_put_ok by auto. rewrite wr_ok by (rewrite Hl; apply cell_lt; auto).
    apply returns_ok. rewrite length_upd. exact Hl. }
  unfold mat_convolve. destruct (mat_default_any M N) as (d & -> & Hd). cbn [bind].
  set (inner := fun y x j i (sum : T) =>
        k <- mat_at U V kernel j i ;;
        a <- mat_at M N m (clampZ (Z.of_nat y - Z.of_nat (V / 2) + Z.of_nat j) N)
                          (clampZ (Z.of_nat x - Z.of_nat (U / 2) + Z.of_nat i) M) ;;
        Ok (sadd sum (smul k a))).
  assert (IT : forall y x j i s, tr (inner y x j i s) (fun _ => True)).
  { intros. unfold inner. eapply tr_bind; [apply AT; exact Hk|]. intros k _.
    eapply tr_bind; [apply AT; exact Hm|]. intros a _. right. apply returns_ok; exact I. }
  match goal with |- bind ?a _ = _ => assert (E : a = Throw) end; [|rewrite E; reflexivity].
  assert (B : forall y x t, length t = M * N ->
    tr (sum <- for_ 0 V (fun j => for_ 0 U (inner y x j)) szero ;; mat_put M N t y x sum) (fun l => length l = M * N)).
  { intros y x t Ht. eapply tr_bind.
    - apply (tr_for (fun _ => True)); [exact I|]. intros j s _. apply (tr_for (fun _ => True)); [exact I|].
      intros i s' _. apply IT.
    - intros s _. apply PT; exact Ht. }
  apply (for_throw' (fun l => length l = M * N) _ 0 N d (N - 1)); [exact Hd| |lia|].
  - intros y t Ht. apply (tr_for (fun l => length l = M * N)); [exact Ht|]. intros x t' Ht'. apply B; exact Ht'.
  - intros t Ht. apply (for_throw' (fun l => length l = M * N) _ 0 M t (M - 1)); [exact Ht| |lia|].
    + intros x t' Ht'. apply B; exact Ht'.
    + intros t' Ht'. cbv zeta. change (bind (for_ 0 V (fun j => for_ 0 U (inner (N - 1) (M - 1) j)) szero)
        (fun sum => mat_put M N t' (N - 1) (M - 1) sum) = Throw).
      destruct (Nat.eq_dec M N) as [EMN|NMN].
      * assert (UV : U <> V) by tauto.
        match goal with |- bind ?a _ = _ => assert (E : a = Throw) end; [|rewrite E; reflexivity].
        apply (for_throw' (fun _ => True) _ 0 V szero (V - 1)); [exact I| |lia|].
        -- intros j s _. apply (tr_for (fun _ => True)); [exact I|]. intros i s' _. apply IT.
        -- intros s _. apply (for_throw' (fun _ => True) _ 0 U s (U - 1)); [exact I| |lia|].
           ++ intros i s' _. apply IT.
           ++ intros s' _. unfold inner.
              rewrite (proj1 (mat_throw U V kernel (V - 1) (U - 1) szero ltac:(lia) Hs)). reflexivity.
      * match goal with |- bind ?a _ = _ => assert (TT : tr a (fun _ => True)) end.
        { apply (tr_for (fun _ => True)); [exact I|]. intros j s _. apply (tr_for (fun _ => True)); [exact I|].
          intros i s' _. apply IT. }
        destruct TT as [->|(s & -> & _)]; [reflexivity|]. cbn [bind].
        apply (proj2 (mat_throw M N t' (N - 1) (M - 1) s ltac:(lia) Hs)).
Qed.
Print Assumptions C31_convolve_rectangular_refuted.

(** Without safe accessors a matrix with more rows than columns is accessed
    outside its storage. *)
Theorem C31_convolve_unchecked_refuted :
  forall (cfg : Cfg) (lim : RLim) (M N u : nat) (m kernel : list R),
  safe = false -> N < M -> 0 < N -> 
  length m = M * N -> length kernel = u * u ->
  mat_convolve M N u u m kernel = UB.
Proof.
  intros cfg lim M N u m kernel Hs HNM HN Hm Hk.
  assert (A1 : forall j i, j < u -> i < u -> exists x, mat_at u u kernel j i = Ok x).
  { intros j i Hj Hi. destruct (mat_rep u u kernel Hk) as (f & R). exists (f j i). apply mat_at_ok; auto. }
  assert (A2 : forall r c, mat_at M N m r c = UB \/ exists x, mat_at M N m r c = Ok x).
  { intros r c. unfold mat_at. rewrite Hs, andb_false_r. unfold rd. destruct (nth_error m (c * M + r)); eauto. }
  assert (IT : forall y x j i s, j < u -> i < u ->
    let v := (k <- mat_at u u kernel j i ;;
        a <- mat_at M N m (clampZ (Z.of_nat y - Z.of_nat (u / 2) + Z.of_nat j) N)
                          (clampZ (Z.of_nat x - Z.of_nat (u / 2) + Z.of_nat i) M) ;;
        Ok (sadd s (smul k a))) in v = UB \/ exists r, v = Ok r).
  { intros y x j i s Hj Hi v. unfold v. destruct (A1 j i Hj Hi) as (k & ->). cbn [bind].
    match goal with |- context [mat_at M N m ?r ?c] => destruct (A2 r c) as [->|(a & ->)] end; cbn [bind]; eauto. }
  assert (ST : forall y x, let v := for_ 0 u (fun j sum => for_ 0 u (fun i sum =>
        k <- mat_at u u kernel j i ;;
        a <- mat_at M N m (clampZ (Z.of_nat y - Z.of_nat (u / 2) + Z.of_nat j) N)
                          (clampZ (Z.of_nat x - Z.of_nat (u / 2) + Z.of_nat i) M) ;;
        Ok (sadd sum (smul k a))) sum) szero in v = UB \/ exists r, v = Ok r).
  { intros y x v. unfold v.
    assert (G : forall (S : Type) (b : nat -> S -> res S) (lo hi : nat) (s : S),
       (forall k x, lo <= k < hi -> b k x = UB \/ exists r, b k x = Ok r) -> for_ lo hi b s = UB \/ exists r, for_ lo hi b s = Ok r).
    { intros S b lo hi. unfold for_. remember (hi - lo) as n eqn:En. revert lo En.
      induction n as [|n IHn]; intros lo En s0 HB; cbn [for_n]; [eauto|].
      destruct (HB lo s0 ltac:(lia)) as [->|(r & ->)]; cbn [bind]; [auto|]. apply IHn; [lia|].
      intros k x' Hk'. apply HB; lia. }
    apply G. intros j s Hj. apply G. intros i s' Hi. apply (IT y x j i s'); lia. }
  unfold mat_convolve. destruct (mat_default_any M N) as (d & -> & Hd). cbn [bind].
  match goal with |- bind ?a _ = _ => assert (E : a = UB) end; [|rewrite E; reflexivity].
  assert (PT : forall y x (l : list R) v, length l = M * N ->
             mat_put M N l y x v = UB \/ returns (mat_put M N l y x v) (fun l => length l = M * N)).
  { intros y x l v Hl. unfold mat_put. rewrite Hs, andb_false_r. unfold wr. destruct (_ <? _); [|auto].
    right. apply returns_ok. rewrite length_upd. exact Hl. }
  rewrite for_step by lia.
  match goal with |- bind ?a _ = _ => assert (E : a = UB) end; [|rewrite E; reflexivity].
  apply (for_ub (fun _ l => length l = M * N)); [exact Hd| |].
  - intros x t Hx Ht. cbv zeta. destruct (ST 0 x) as [->|(s & ->)]; cbn [bind]; [auto|]. apply PT; exact Ht.
  - exists N. split; [lia|]. intros t Ht. cbv zeta. destruct (ST 0 N) as [->|(s & ->)]; cbn [bind]; [auto|].
    unfold mat_put. rewrite Hs, andb_false_r. apply wr_ub. rewrite Ht. nia.
Qed.
Print Assumptions C31_convolve_unchecked_refuted.

Example C31_hypotheses_met :
  repM 2 2 [1; 2; 3; 4]%R (fun i j => nth (j * 2 + i) [1; 2; 3; 4]%R 0%R) /\
  repM 3 3 (repeat 1%R 9) (fun _ _ => 1%R) /\ length [1; 2]%R = 2 * 1 /\ 2 <> 1.
Proof. split; [apply repM_nth; reflexivity|]. split; [apply (repM_repeat 3 3)|]. split; [reflexivity|lia]. Qed.

(** ** C33 *)
Local Open Scope R_scope.
Lemma pd3_run {cfg : Cfg} {lim : RLim} m f limit : repM 3 3 m f ->
  exists b, mat_is_pd3 m limit = Ok b /\
    (b = true <-> limit <= f 0%nat 0%nat /\ limit <= detR 2 f /\ limit <= detR 3 f).
Proof.
  intros Hm. unfold mat_is_pd3. rewrite (mat_at_ok 3 3 m f) by (auto; lia). cbn [bind]. cbn [sltb RScalar].
  destruct (Rltb_spec (f 0%nat 0%nat) limit) as [L|L]; [exists false; split; [reflexivity|split; [discriminate|lra]]|].
  destruct (mat_default_spec 2 2) as (s0 & -> & H0). cbn [bind].
  destruct (mat_get_sub_spec 3 3 2 2 m f s0 _ 0 0 Hm H0 ltac:(lia) ltac:(lia)) as (s1 & -> & H1). cbn [bind].
  assert (D2 : mat_det2 s1 = Ok (detR 2 f)).
  { pose proof (mat_det_R 2 s1 _ ltac:(lia) H1) as D. cbn [mat_det] in D. rewrite D. f_equal. }
  rewrite D2. cbn [bind].
  destruct (Rltb_spec (detR 2 f) limit) as [L2|L2]; [exists false; split; [reflexivity|split; [discriminate|lra]]|].
  destruct (mat_default_spec 3 3) as (t0 & -> & G0). cbn [bind].
  destruct (mat_get_sub_spec 3 3 3 3 m f t0 _ 0 0 Hm G0 ltac:(lia) ltac:(lia)) as (t1 & -> & G1). cbn [bind].
  assert (D3 : mat_det3 t1 = Ok (detR 3 f)).
  { pose proof (mat_det_R 3 t1 _ ltac:(lia) G1) as D. cbn [mat_det] in D. rewrite D. f_equal. }
  rewrite D3. cbn [bind].
  destruct (Rltb_spec (detR 3 f) limit) as [L3|L3]; [exists false; split; [reflexivity|split; [discriminate|lra]]|].
  exists true. split; [reflexivity|]. split; [lra|reflexivity].
Qed.

(** Sylvester's criterion for 3 x 3. *)
Lemma sylvester3 f : symmetricR 3 f ->
  (pos_defR 3 f <-> 0 < f 0%nat 0%nat /\ 0 < detR 2 f /\ 0 < detR 3 f).
Proof.
  intros Hs.
  assert (E1 : f 1%nat 0%nat = f 0%nat 1%nat) by (apply Hs; lia).
  assert (E2 : f 2%nat 0%nat = f 0%nat 2%nat) by (apply Hs; lia).
  assert (E3 : f 2%nat 1%nat = f 1%nat 2%nat) by (apply Hs; lia).
  assert (Q : forall x, quadR 3 f x =
     f 0%nat 0%nat * x 0%nat * x 0%nat + f 1%nat 1%nat * x 1%nat * x 1%nat + f 2%nat 2%nat * x 2%nat * x 2%nat +
     2 * f 0%nat 1%nat * x 0%nat * x 1%nat + 2 * f 0%nat 2%nat * x 0%nat * x 2%nat + 2 * f 1%nat 2%nat * x 1%nat * x 2%nat).
  { intros x. unfold quadR. cbn [rsum]. rewrite E1, E2, E3. ring. }
  assert (D2 : detR 2 f = f 0%nat 0%nat * f 1%nat 1%nat - f 0%nat 1%nat * f 0%nat 1%nat).
  { unfold detR, minor0. cbn -[IZR Rplus Rmult Rminus]. rewrite E1. ring. }
  assert (D3 : detR 3 f = f 0%nat 0%nat * (f 1%nat 1%nat * f 2%nat 2%nat - f 1%nat 2%nat * f 1%nat 2%nat)
       - f 0%nat 1%nat * (f 0%nat 1%nat * f 2%nat 2%nat - f 1%nat 2%nat * f 0%nat 2%nat)
       + f 0%nat 2%nat * (f 0%nat 1%nat * f 1%nat 2%nat - f 1%nat 1%nat * f 0%nat 2%nat)).
  { unfold detR, minor0. cbn -[IZR Rplus Rmult Rminus]. rewrite E1, E2, E3. ring. }
  rewrite D2, D3. clear D2 D3. unfold pos_defR. 
  set (a := f 0%nat 0%nat) in *. set (b := f 0%nat 1%nat) in *. set (c := f 0%nat 2%nat) in *.
  set (d := f 1%nat 1%nat) in *. set (e := f 1%nat 2%nat) in *. set (g := f 2%nat 2%nat) in *.
  set (v3f := fun p q r : R => fun i : nat => match i with O => p | 1%nat => q | _ => r end).
  split.
  - intros H.
    assert (Ha : 0 < a).
    { specialize (H (v3f 1 0 0)). rewrite Q in H. cbn in H.
      assert (0 < a * 1 * 1 + d * 0 * 0 + g * 0 * 0 + 2 * b * 1 * 0 + 2 * c * 1 * 0 + 2 * e * 0 * 0)
        by (apply H; exists 0%nat; split; [lia|cbn; lra]). lra. }
    split; [exact Ha|].
    assert (H2 : 0 < a * d - b * b).
    { specialize (H (v3f (- b) a 0)). rewrite Q in H. cbn in H.
      assert (K : 0 < a * - b * - b + d * a * a + g * 0 * 0 + 2 * b * - b * a + 2 * c * - b * 0 + 2 * e * a * 0)
        by (apply H; exists 1%nat; split; [lia|cbn; lra]).
      replace (a * - b * - b + d * a * a + g * 0 * 0 + 2 * b * - b * a + 2 * c * - b * 0 + 2 * e * a * 0)
        with (a * (a * d - b * b)) in K by ring.
      apply (Rmult_lt_reg_l a); [exact Ha|]. rewrite Rmult_0_r. exact K. }
    split; [exact H2|].
    specialize (H (v3f (b * e - c * d) (b * c - a * e) (a * d - b * b))). rewrite Q in H. cbn in H.
    match type of H with _ -> 0 < ?X => assert (K : 0 < X) by (apply H; exists 2%nat; split; [lia|cbn; lra]);
      replace X with ((a * d - b * b) * (a * (d * g - e * e) - b * (b * g - e * c) + c * (b * e - d * c))) in K by ring end.
    apply (Rmult_lt_reg_l (a * d - b * b)); [exact H2|]. rewrite Rmult_0_r. exact K.
  - intros (Ha & H2 & H3) x (i & Hi & Hx). rewrite Q.
    set (x0 := x 0%nat) in *. set (x1 := x 1%nat) in *. set (x2 := x 2%nat) in *.
    set (D3 := a * (d * g - e * e) - b * (b * g - e * c) + c * (b * e - d * c)) in *.
    set (q := a * x0 * x0 + d * x1 * x1 + g * x2 * x2 + 2 * b * x0 * x1 + 2 * c * x0 * x2 + 2 * e * x1 * x2).
    set (p := a * x0 + b * x1 + c * x2). set (r := (a * d - b * b) * x1 + (a * e - b * c) * x2).
    assert (ID : a * (a * d - b * b) * q = (a * d - b * b) * (p * p) + r * r + a * D3 * (x2 * x2))
      by (unfold q, p, r, D3; ring).
    assert (P2 : 0 < a * (a * d - b * b)) by (apply Rmult_lt_0_compat; assumption).
    assert (P3 : 0 < a * D3) by (apply Rmult_lt_0_compat; assumption).
    assert (NZ : x2 <> 0 \/ r <> 0 \/ p <> 0).
    { destruct (Req_EM_T x2 0) as [Z2|]; [|auto]. destruct (Req_EM_T r 0) as [Zr|]; [|auto].
      destruct (Req_EM_T p 0) as [Zp|]; [|auto]. exfalso.
      assert (Z1 : x1 = 0).
      { unfold r in Zr. rewrite Z2 in Zr. assert (K : (a * d - b * b) * x1 = 0) by lra.
        apply Rmult_integral in K. lra. }
      assert (Z0 : x0 = 0).
      { unfold p in Zp. rewrite Z2, Z1 in Zp. assert (K : a * x0 = 0) by lra. apply Rmult_integral in K. lra. }
      destruct i as [|[|[|]]]; try lia; auto. }
    apply (Rmult_lt_reg_l _ _ _ P2). rewrite Rmult_0_r, ID.
    assert (S : forall y, 0 <= y * y) by (intros; nra).
    assert (S' : forall y, y <> 0 -> 0 < y * y) by (intros; nra).
    pose proof (S p). pose proof (S r). pose proof (S x2).
    assert (0 <= (a * d - b * b) * (p * p)) by (apply Rmult_le_pos; lra).
    assert (0 <= a * D3 * (x2 * x2)) by (apply Rmult_le_pos; lra).
    destruct NZ as [N|[N|N]]; apply S' in N.
    + assert (0 < a * D3 * (x2 * x2)) by (apply Rmult_lt_0_compat; lra). lra.
    + lra.
    + assert (0 < (a * d - b * b) * (p * p)) by (apply Rmult_lt_0_compat; lra). lra.
Qed.

(** C33, what holds: the function compares the three leading minors with the
    limit; a positive definite matrix is accepted for every limit that does not
    exceed its minors, in particular every limit <= 0 (so also the default);
    for a positive limit an accepted symmetric matrix is positive definite. *)
Theorem C33_is_positive_definite_partial :
  forall (cfg : Cfg) (lim : RLim) (m : list R) (f : nat -> nat -> R) (limit : R),
  repM 3 3 m f -> symmetricR 3 f ->
  exists b, mat_is_pd3 m limit = Ok b /\
    (b = true <-> limit <= f 0%nat 0%nat /\ limit <= detR 2 f /\ limit <= detR 3 f) /\
    (limit <= 0 -> pos_defR 3 f -> b = true) /\
    (0 < limit -> b = true -> pos_defR 3 f).
Proof.
  intros cfg lim m f limit Hm Hs. destruct (pd3_run m f limit Hm) as (b & E & Hb).
  exists b. split; [exact E|]. split; [exact Hb|]. rewrite (sylvester3 f Hs). split.
  - intros Hl HP. apply Hb. lra.
  - intros Hl Hbt. apply Hb in Hbt. lra.
Qed.
Print Assumptions C33_is_positive_definite_partial.

(** C33, the claim is false: with the default limit -1e12 every symmetric matrix
    with entries between -1000 and 1000 is accepted, also the negative
    definite ones. *)
Theorem C33_default_limit_refuted :
  forall (cfg : Cfg) (lim : RLim) (m : list R) (f : nat -> nat -> R),
  repM 3 3 m f -> (forall i j, (i < 3)%nat -> (j < 3)%nat -> -1000 <= f i j <= 1000) ->
  mat_is_pd3 m (- 10 ^ 12) = Ok true.
Proof.
  intros cfg lim m f Hm HB. destruct (pd3_run m f (- 10 ^ 12) Hm) as (b & E & Hb). rewrite E. f_equal. apply Hb. clear E Hb.
  pose proof (HB 0 0 ltac:(lia) ltac:(lia))%nat as B00. pose proof (HB 0 1 ltac:(lia) ltac:(lia))%nat as B01.
  pose proof (HB 0 2 ltac:(lia) ltac:(lia))%nat as B02. pose proof (HB 1 0 ltac:(lia) ltac:(lia))%nat as B10.
  pose proof (HB 1 1 ltac:(lia) ltac:(lia))%nat as B11. pose proof (HB 1 2 ltac:(lia) ltac:(lia))%nat as B12.
  pose proof (HB 2 0 ltac:(lia) ltac:(lia))%nat as B20. pose proof (HB 2 1 ltac:(lia) ltac:(lia))%nat as B21.
  pose proof (HB 2 2 ltac:(lia) ltac:(lia))%nat as B22.
  assert (P2 : forall x y, -1000 <= x <= 1000 -> -1000 <= y <= 1000 -> -1000000 <= x * y <= 1000000) by (intros; nra).
  assert (P3 : forall x y, -2000000 <= x <= 2000000 -> -1000 <= y <= 1000 -> -2000000000 <= y * x <= 2000000000) by (intros; nra).
  assert (D2 : detR 2 f = f 0%nat 0%nat * f 1%nat 1%nat - f 0%nat 1%nat * f 1%nat 0%nat)
    by (unfold detR, minor0; cbn -[IZR Rplus Rmult Rminus]; ring).
  assert (D3 : detR 3 f = f 0%nat 0%nat * (f 1%nat 1%nat * f 2%nat 2%nat - f 1%nat 2%nat * f 2%nat 1%nat)
       - f 0%nat 1%nat * (f 1%nat 0%nat * f 2%nat 2%nat - f 1%nat 2%nat * f 2%nat 0%nat)
       + f 0%nat 2%nat * (f 1%nat 0%nat * f 2%nat 1%nat - f 1%nat 1%nat * f 2%nat 0%nat))
    by (unfold detR, minor0; cbn -[IZR Rplus Rmult Rminus]; ring).
  rewrite D2, D3. repeat split.
  - lra.
  - pose proof (P2 _ _ B00 B11). pose proof (P2 _ _ B01 B10). lra.
  - pose proof (P2 _ _ B11 B22). pose proof (P2 _ _ B12 B21). pose proof (P2 _ _ B10 B22). pose proof (P2 _ _ B12 B20).
    pose proof (P2 _ _ B10 B21). pose proof (P2 _ _ B11 B20).
    pose proof (P3 (f 1%nat 1%nat * f 2%nat 2%nat - f 1%nat 2%nat * f 2%nat 1%nat) _ ltac:(lra) B00).
    pose proof (P3 (f 1%nat 0%nat * f 2%nat 2%nat - f 1%nat 2%nat * f 2%nat 0%nat) _ ltac:(lra) B01).
    pose proof (P3 (f 1%nat 0%nat * f 2%nat 1%nat - f 1%nat 1%nat * f 2%nat 0%nat) _ ltac:(lra) B02).
    lra.
Qed.
Print Assumptions C33_default_limit_refuted.

(** minus the identity meets the hypotheses and is negative definite. *)
Example C33_hypotheses_met :
  let m := [-1; 0; 0; 0; -1; 0; 0; 0; -1] in
  let f := fun i j : nat => if (i =? j)%nat then -1 else 0 in
  repM 3 3 m f /\ symmetricR 3 f /\ (forall i j, (i < 3)%nat -> (j < 3)%nat -> -1000 <= f i j <= 1000) /\
  ~ pos_defR 3 f.
Proof.
  cbv zeta. split; [|split; [|split]].
  - split; [reflexivity|]. intros i j Hi Hj.
    do 3 (destruct i as [|i]; [do 3 (destruct j as [|j]; [reflexivity|]); lia|]). lia.
  - intros i j _ _. rewrite Nat.eqb_sym. reflexivity.
  - intros i j _ _. destruct (i =? j)%nat; lra.
  - intros H. specialize (H (fun _ => 1)). 
    assert (K : 0 < quadR 3 (fun i j : nat => if (i =? j)%nat then -1 else 0) (fun _ => 1))
      by (apply H; exists 0%nat; split; [lia|lra]).
    unfold quadR in K. cbn -[IZR Rplus Rmult] in K. lra.
Qed.

(** ** C34 *)
Local Open Scope nat_scope.
Section C34.
Context {cfg : Cfg} {T : Type} {ST : Scalar T}.

(** A loop that stays true as long as [P] holds. *)
Lemma for_all (n : nat) (P : nat -> Prop) (body : nat -> bool -> res bool) :
  (forall i, i < n -> returns (body i true) (fun b => b = true <-> P i)) ->
  (forall i, i < n -> body i false = Ok false) ->
  returns (for_ 0 n body true) (fun b => b = true <-> forall i, i < n -> P i).
Proof.
  intros Ht Hf.
  apply (for_inv (fun k b => b = true <-> forall i, i < k -> P i)); [lia|split; [intros; lia|reflexivity]|].
  intros k b Hk IH. destruct b.
  - eapply returns_impl; [apply Ht; lia|]. intros b Hb. rewrite Hb. split.
    + intros HP i Hi. destruct (Nat.eq_dec i k) as [->|]; [exact HP|]. apply IH; [reflexivity|lia].
    + intros H; apply H; lia.
  - rewrite Hf by lia. apply returns_ok. split; [discriminate|]. intros H. apply IH. intros i Hi. apply H; lia.
Qed.

Lemma mat_eq_spec M N (m o : list T) f g : repM M N m f -> repM M N o g ->
  returns (mat_eq M N m o) (fun b => b = true <-> forall i j, i < M -> j < N -> seqb (f i j) (g i j) = true).
Proof.
  intros Hm Ho. pose proof (repM_repV_cell M N m f Hm) as Hv. pose proof (repM_repV_cell M N o g Ho) as Hw.
  eapply returns_impl; [apply (for_all (M * N) (fun k => seqb (f (k mod M) (k / M)) (g (k mod M) (k / M)) = true))|].
  - intros i Hi. rewrite (repV_rd _ _ _ _ Hv Hi), (repV_rd _ _ _ _ Hw Hi). apply returns_ok. reflexivity.
  - intros; reflexivity.
  - intros b Hb. rewrite Hb. split.
    + intros H i j Hi Hj. specialize (H (j * M + i) (cell_lt M N i j Hi Hj)). rewrite cell_mod, cell_div in H by exact Hi. exact H.
    + intros H k Hk. destruct (cell_surj M N k Hk) as (i & j & Hi & Hj & ->). rewrite cell_mod, cell_div by exact Hi. auto.
Qed.

Lemma mat_equals_by_spec (cmp : T -> T -> bool) M N (m o : list T) f g : repM M N m f -> repM M N o g ->
  returns (mat_equals_by cmp M N m o) (fun b => b = true <-> forall i j, i < M -> j < N -> cmp (f i j) (g i j) = true).
Proof.
  intros Hm Ho. eapply returns_impl; [apply (for_all M (fun i => forall j, j < N -> cmp (f i j) (g i j) = true))|].
  - intros i Hi. apply (for_all N (fun j => cmp (f i j) (g i j) = true)).
    + intros j Hj. rewrite (mat_at_ok M N m f), (mat_at_ok M N o g) by auto. apply returns_ok. reflexivity.
    + intros; reflexivity.
  - intros i Hi. destruct (for_inv (fun _ b => b = false) 0 N (fun c (ok : bool) =>
      if ok then a <- mat_at M N m i c ;; b <- mat_at M N o i c ;; Ok (cmp a b) else Ok false) false) as (b & E & ->);
      [lia|reflexivity| |exact E]. intros k b Hk ->. apply returns_ok. reflexivity.
  - intros b Hb. rewrite Hb. split; intros H; intros; apply H; auto.
Qed.
End C34.

Theorem C34_equality :
  forall (cfg : Cfg) (T : Type) (ST : Scalar T) (M N : nat) (m o : list T) (f g : nat -> nat -> T),
  repM M N m f -> repM M N o g ->
  (exists b, mat_eq M N m o = Ok b /\ mat_neq M N m o = Ok (negb b) /\
     (b = true <-> forall i j, i < M -> j < N -> seqb (f i j) (g i j) = true)) /\
  (forall cmp : T -> T -> bool,
     returns (mat_equals_by cmp M N m o) (fun b => b = true <-> forall i j, i < M -> j < N -> cmp (f i j) (g i j) = true)).
Proof.
  intros cfg T ST M N m o f g Hm Ho. split.
  - destruct (mat_eq_spec M N m o f g Hm Ho) as (b & E & Hb). exists b. split; [exact E|].
    unfold mat_neq. rewrite E. split; [reflexivity|exact Hb].
  - intros cmp. apply mat_equals_by_spec; auto.
Qed.
Print Assumptions C34_equality.

Theorem C34_equals_tolerance :
  forall (cfg : Cfg) (lim : RLim) (M N : nat) (m o : list R) (f g : nat -> nat -> R) (tol : R),
  repM M N m f -> repM M N o g ->
  returns (mat_equals M N m o tol)
    (fun b => b = true <-> forall i j, i < M -> j < N -> (Rabs (f i j - g i j) < tol)%R) /\
  returns (mat_eq M N m o) (fun b => b = true <-> m = o).
Proof.
  intros cfg lim M N m o f g tol Hm Ho. split.
  - eapply returns_impl; [apply (mat_equals_by_spec (fun a b : R => sltb (sabs (ssub a b)) tol) M N m o f g Hm Ho)|].
    intros b Hb. rewrite Hb. cbn. split; intros H i j Hi Hj; apply Rltb_iff; auto.
  - eapply returns_impl; [apply (mat_eq_spec M N m o f g Hm Ho)|]. intros b Hb. rewrite Hb. cbn. split.
    + intros H. eapply repM_inj; [exact Hm|]. eapply repM_ext; [exact Ho|]. intros i j Hi Hj.
      symmetry. apply Reqb_iff; auto.
    + intros -> i j Hi Hj. apply Reqb_iff. exact (repM_fun _ _ _ _ _ Hm Ho i j Hi Hj).
Qed.
Print Assumptions C34_equals_tolerance.

(** The comparisons up to a sign per row / column, over the reals. *)
Definition agree_up_to_sign (n : nat) (u v : nat -> R) : Prop :=
  (forall k, k < n -> u k = v k) \/ (forall k, k < n -> u k = (- v k)%R).
Definition close_up_to_sign (n : nat) (tol : R) (u v : nat -> R) : Prop :=
  (forall k, k < n -> (Rabs (u k - v k) < tol)%R) \/ (forall k, k < n -> (Rabs (u k + v k) < tol)%R).

Section C34R.
Context {cfg : Cfg} {lim : RLim}.

Lemma line_exact n (a b : list R) (u v : nat -> R) : repV n a u -> repV n b v ->
  returns (if vec_neq a b then nb <- vec_neg n b ;; Ok (negb (vec_neq a nb)) else Ok true)
    (fun x => x = true <-> agree_up_to_sign n u v).
Proof.
  intros Ha Hb. unfold vec_neq. pose proof (vec_eq_spec n a b u v Ha Hb) as E1. cbn [sbits RScalar] in E1.
  assert (E1' : vec_eq a b = true <-> forall k, k < n -> u k = v k).
  { rewrite E1. split; intros H k Hk; apply Reqb_iff; auto. }
  destruct (vec_eq a b); cbn [negb].
  - apply returns_ok. split; [|reflexivity]. intros _. left. apply E1'; reflexivity.
  - eapply returns_bind; [apply (vec_negate_spec n b v Hb)|]. intros nb Hnb. apply returns_ok.
    pose proof (vec_eq_spec n a nb u _ Ha Hnb) as E2. cbn [sbits RScalar sopp] in E2.
    rewrite negb_involutive, E2. unfold agree_up_to_sign. split.
    + intros H. right. intros k Hk. apply Reqb_iff; auto.
    + intros [H|H]; [apply E1' in H; discriminate|]. intros k Hk. apply Reqb_iff; auto.
Qed.

Lemma line_tol n (a b : list R) (u v : nat -> R) tol : repV n a u -> repV n b v ->
  returns (e <- vec_equals n a b tol ;; if negb e then nb <- vec_neg n b ;; vec_equals n a nb tol else Ok true)
    (fun x => x = true <-> close_up_to_sign n tol u v).
Proof.
  intros Ha Hb.
  assert (K : forall x y fx fy, repV n x fx -> repV n y fy ->
     returns (vec_equals n x y tol) (fun e => e = true <-> forall k, k < n -> (Rabs (fx k - fy k) < tol)%R)).
  { intros x y fx fy Hx Hy. eapply returns_impl; [apply (vec_equals_spec n x y fx fy tol Hx Hy)|].
    intros e He. rewrite He. cbn. split; intros H k Hk; specialize (H k Hk).
    - destruct (Rleb_spec tol (Rabs (fx k - fy k))); [discriminate|lra].
    - apply Rleb_false; exact H. }
  destruct (K a b u v Ha Hb) as (e & -> & He). cbn [bind]. destruct e; cbn [negb].
  - apply returns_ok. split; [|reflexivity]. intros _. left. apply He; reflexivity.
  - eapply returns_bind; [apply (vec_negate_spec n b v Hb)|]. intros nb Hnb.
    eapply returns_impl; [apply (K a nb u _ Ha Hnb)|]. intros e Hee. rewrite Hee. cbn [sopp RScalar]. unfold close_up_to_sign.
    assert (X : forall k, (u k - - v k = u k + v k)%R) by (intros; ring). split.
    + intros H. right. intros k Hk. rewrite <- X. apply H; exact Hk.
    + intros [H|H]; [apply He in H; discriminate|]. intros k Hk. rewrite X. apply H; exact Hk.
Qed.
End C34R.

Theorem C34_inverted_rows_columns :
  forall (cfg : Cfg) (lim : RLim) (M N : nat) (m o : list R) (f g : nat -> nat -> R) (tol : R),
  repM M N m f -> repM M N o g ->
  returns (fun_eq_inv_rows M N m o) (fun b => b = true <-> forall i, i < M -> agree_up_to_sign N (f i) (g i)) /\
  returns (fun_eq_inv_rows_tol M N m o tol) (fun b => b = true <-> forall i, i < M -> close_up_to_sign N tol (f i) (g i)) /\
  returns (fun_eq_inv_cols M N m o)
    (fun b => b = true <-> forall j, j < N -> agree_up_to_sign M (fun i => f i j) (fun i => g i j)) /\
  returns (fun_eq_inv_cols_tol M N m o tol)
    (fun b => b = true <-> forall j, j < N -> close_up_to_sign M tol (fun i => f i j) (fun i => g i j)).
Proof.
  intros cfg lim M N m o f g tol Hm Ho. repeat apply conj.
  - apply for_all; [|reflexivity]. intros i Hi.
    destruct (mat_get_row_spec M N m f i Hm Hi) as (a & -> & Ha), (mat_get_row_spec M N o g i Ho Hi) as (b & -> & Hb).
    cbn [bind]. apply (line_exact N a b _ _ Ha Hb).
  - apply for_all; [|reflexivity]. intros i Hi.
    destruct (mat_get_row_spec M N m f i Hm Hi) as (a & -> & Ha), (mat_get_row_spec M N o g i Ho Hi) as (b & -> & Hb).
    cbn [bind]. apply (line_tol N a b _ _ tol Ha Hb).
  - apply for_all; [|reflexivity]. intros i Hi.
    destruct (mat_get_column_spec M N m f i Hm Hi) as (a & -> & Ha), (mat_get_column_spec M N o g i Ho Hi) as (b & -> & Hb).
    cbn [bind]. apply (line_exact M a b _ _ Ha Hb).
  - apply for_all; [|reflexivity]. intros i Hi.
    destruct (mat_get_column_spec M N m f i Hm Hi) as (a & -> & Ha), (mat_get_column_spec M N o g i Ho Hi) as (b & -> & Hb).
    cbn [bind]. apply (line_tol M a b _ _ tol Ha Hb).
Qed.
Print Assumptions C34_inverted_rows_columns.

(** For doubles the exact form is wrong for rows containing a zero: negation
    turns 0 into -0 and the rows are compared bit by bit.  Rows (0,-1) and
    (0,1) agree up to sign and are rejected. *)
Theorem C102_inverted_rows_zero_refuted :
  forall (cfg : Cfg), let ST := F64Scalar in
  let row0 := [f64_zero; @sopp _ F64Scalar f64_one] in let row1 := [f64_zero; f64_one] in
  (exists n, vec_neg 2 row1 = Ok n /\ mat_eq 1 2 row0 n = Ok true) /\
  fun_eq_inv_rows 1 2 row0 row1 = Ok false.
Proof.
  intros [[|]]; cbv zeta; split; try (eexists; split; [vm_compute; reflexivity|vm_compute; reflexivity]);
    vm_compute; reflexivity.
Qed.
Print Assumptions C102_inverted_rows_zero_refuted.

Example C34_hypotheses_met :
  let f := fun i j : nat => nth (j * 2 + i) [1; 2; 3; 4]%R 0%R in
  let g := fun i j : nat => nth (j * 2 + i) [-1; 2; -3; 4]%R 0%R in
  repM 2 2 [1; 2; 3; 4]%R f /\ repM 2 2 [-1; 2; -3; 4]%R g /\ (forall i, i < 2 -> agree_up_to_sign 2 (f i) (g i)).
Proof.
  cbv zeta. split; [apply repM_nth; reflexivity|]. split; [apply repM_nth; reflexivity|].
  intros i Hi. destruct i as [|[|]]; [right|left|lia]; intros [|[|]] Hk; try lia; cbn; lra.
Qed.

(** ** C80 *)
(** The traits address at( Col, Row ): for a square matrix the transposed cell. *)
Theorem C80_traits_square_partial :
  forall (cfg : Cfg) (T : Type) (ST : Scalar T) (M : nat) (m : list T) (f : nat -> nat -> T) (row col : nat) (x : T),
  repM M M m f -> row < M -> col < M ->
  traits_r M M m row col = Ok (f col row) /\
  returns (traits_w M M m row col x) (fun m' =>
    repM M M m' (fun i j => if (i =? col) && (j =? row) then x else f i j) /\ traits_r M M m' row col = Ok x).
Proof.
  intros cfg T ST M m f row col x Hm Hr Hc. split; [apply mat_at_ok; auto|].
  eapply returns_impl; [apply (mat_put_rep M M m f col row x Hm Hc Hr)|]. intros m' Hm'. split; [exact Hm'|].
  unfold traits_r. rewrite (mat_at_ok _ _ _ _ _ _ Hm') by auto. cbv beta. rewrite !Nat.eqb_refl. reflexivity.
Qed.
Print Assumptions C80_traits_square_partial.

(** So r< Row, Col > is the cell (Row, Col) only on symmetric entries ... *)
Theorem C80_traits_transposed_refuted :
  forall (cfg : Cfg) (T : Type) (ST : Scalar T) (M : nat) (m : list T) (f : nat -> nat -> T) (row col : nat),
  repM M M m f -> row < M -> col < M ->
  (traits_r M M m row col = mat_at M M m row col <-> f col row = f row col).
Proof.
  intros cfg T ST M m f row col Hm Hr Hc. unfold traits_r. rewrite !(mat_at_ok M M m f) by auto.
  split; [intros E; injection E; auto|intros ->; reflexivity].
Qed.
Print Assumptions C80_traits_transposed_refuted.

(** ... and for a matrix with more columns than rows the access to a cell of
    the first row and a column >= M throws with safe accessors; for a matrix
    with more rows than columns the last valid row is read outside the
    storage without them. *)
Theorem C80_traits_out_of_range_refuted :
  forall (cfg : Cfg) (T : Type) (ST : Scalar T) (M N : nat) (m : list T) (row col : nat),
  length m = M * N -> row < M -> col < N ->
  (M <= col -> safe = true -> traits_r M N m row col = Throw) /\
  (N <= row -> safe = false -> traits_r M N m row col = UB).
Proof.
  intros cfg T ST M N m row col Hl Hr Hc. unfold traits_r, mat_at. split; intros H Hs; rewrite Hs.
  - destruct (Nat.leb_spec M col); [reflexivity|lia].
  - rewrite andb_false_r. apply rd_ub. rewrite Hl. nia.
Qed.
Print Assumptions C80_traits_out_of_range_refuted.

(** The vector traits are right. *)
Theorem C80_vector_traits :
  forall (T : Type) (v : list T) (n i : nat) (f : nat -> T) (x : T),
  repV n v f -> i < n ->
  vtraits_r v i = Ok (f i) /\
  returns (vtraits_w v i x) (fun w => repV n w (fun k => if k =? i then x else f k)).
Proof.
  intros T v n i f x Hv Hi. split; [apply (repV_rd n); auto|].
  unfold vtraits_w. destruct (repV_wr n v f i x Hv Hi) as [-> Hw]. apply returns_ok. exact Hw.
Qed.
Print Assumptions C80_vector_traits.

Example C80_hypotheses_met :
  repM 2 2 [1; 2; 3; 4] (fun i j => nth (j * 2 + i) [1; 2; 3; 4] 0) /\
  nth (1 * 2 + 0) [1; 2; 3; 4] 0 <> nth (0 * 2 + 1) [1; 2; 3; 4] 0 /\
  length [1; 2; 3] = 1 * 3 /\ 0 < 1 /\ 2 < 3 /\ 1 <= 2.
Proof. split; [apply repM_nth; reflexivity|]. cbn. lia. Qed.
