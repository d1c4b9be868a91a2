(** Inverses. *)
From Verif Require Export LMat5.
Local Open Scope R_scope.

Section Inv.
Context {cfg : Cfg} {lim : RLim}.

Lemma mat_mul_id n m m' f g :
  repM n n m f -> repM n n m' g ->
  (forall i j, (i < n)%nat -> (j < n)%nat -> mmulR n f g i j = idR i j) ->
  exists i, mat_IDENTITY n = Ok i /\ mat_mul n n n m m' = Ok i.
Proof.
  intros Hm Hg H. destruct (mat_default_spec n n) as (d0 & E0 & H0).
  destruct (mat_identity_spec n d0 _ H0) as (i & Ei & Hi). exists i. unfold mat_IDENTITY. rewrite E0.
  split; [exact Ei|]. destruct (mat_mul_R n n n m m' f g Hm Hg) as (x & Ex & Hx). rewrite Ex. f_equal.
  eapply repM_inj; [|exact Hi]. eapply repM_ext; [exact Hx|]. exact H.
Qed.

(** adj / det is the inverse. *)
Lemma scaled_adj n f i j : (2 <= n <= 4)%nat -> (i < n)%nat -> (j < n)%nat -> detR n f <> 0 ->
  mmulR n f (fun i j => cofR n f j i * (1 / detR n f)) i j = idR i j /\
  mmulR n (fun i j => cofR n f j i * (1 / detR n f)) f i j = idR i j.
Proof.
  intros Hn Hi Hj Hd. split.
  - transitivity (mmulR n f (fun i j => cofR n f j i) i j * (1 / detR n f)).
    + unfold mmulR. rewrite <- rsum_scal_r. apply rsum_ext; intros; ring.
    + rewrite adj_left by auto. field. exact Hd.
  - transitivity (mmulR n (fun i j => cofR n f j i) f i j * (1 / detR n f)).
    + unfold mmulR. rewrite <- rsum_scal_r. apply rsum_ext; intros; ring.
    + rewrite adj_right by auto. field. exact Hd.
Qed.

(** What inverse() computes, for the three sizes: [acc] is the acceptance test. *)
Definition inv_result (n : nat) (f : nat -> nat -> R) (acc : bool) (p : res (bool * list R)) : Prop :=
  (acc = true -> detR n f = 0 -> p = NonFin) /\
  (acc = true -> detR n f <> 0 ->
     exists x, p = Ok (true, x) /\ repM n n x (fun i j => cofR n f j i * (1 / detR n f))) /\
  (acc = false -> exists x, p = Ok (false, x) /\ length x = (n * n)%nat).

Lemma mat_inverse2_R m inv f g tol : repM 2 2 m f -> repM 2 2 inv g ->
  inv_result 2 f (negb (Rltb (Rabs (detR 2 f)) tol)) (mat_inverse2 (Val m) inv tol).
Proof.
  intros Hm Hi. unfold mat_inverse2. cbn [argl].
  change (mat_det2 m) with (mat_det 2 m). rewrite (mat_det_R 2 m f) by (auto; lia). cbn [bind].
  change (sltb (sabs (detR 2 f)) tol) with (Rltb (Rabs (detR 2 f)) tol).
  destruct (Rltb (Rabs (detR 2 f)) tol); cbn [negb].
  - split; [discriminate|]. split; [discriminate|]. intros _. exists inv. split; [reflexivity|apply Hi].
  - split; [|split; [|discriminate]].
    + intros _ E. cbn [sdiv RScalar]. rewrite Reqb_true by exact E. reflexivity.
    + intros _ E. rewrite sdiv_R by exact E. cbn [bind].
      destruct (mat_get_adjugate_R 2 m inv f g ltac:(lia) Hm Hi) as (a & -> & Ha). cbn [bind].
      destruct (mat_map_assign_s_spec 2 2 (fun x => Ok (smul x (1 / detR 2 f))) a _
        (fun i j => cofR 2 f j i * (1 / detR 2 f)) Ha) as (x & E2 & Hx); [reflexivity|].
      exists x. unfold mat_mul_assign_s. cbn [sone RScalar]. rewrite E2. split; [reflexivity|exact Hx].
Qed.

Lemma scale_cells n M (x : list R) h k : (M = n * n)%nat -> repM n n x h ->
  returns (for_ 0 M (fun i inv => y <- rd inv i ;; wr inv i (smul y k)) x) (fun r => repM n n r (fun i j => h i j * k)).
Proof.
  intros -> Hx. exact (mat_iter_map_spec n n (fun y => smul y k) x h Hx).
Qed.

Lemma mat_inverse3_R m inv f g tol : repM 3 3 m f -> repM 3 3 inv g ->
  inv_result 3 f (negb (Rleb (Rabs (detR 3 f)) tol)) (mat_inverse3 (Val m) inv tol).
Proof.
  intros Hm Hi.
  pose (A := [cofR 3 f 0 0; cofR 3 f 0 1; cofR 3 f 0 2; cofR 3 f 1 0; cofR 3 f 1 1; cofR 3 f 1 2;
              cofR 3 f 2 0; cofR 3 f 2 1; cofR 3 f 2 2]).
  assert (HA : repM 3 3 A (fun i j => cofR 3 f j i)) by exact (repM_33 (fun i j => cofR 3 f j i)).
  assert (E : mat_inverse3 (Val m) inv tol =
    if Rleb (Rabs (detR 3 f)) tol then Ok (false, A)
    else detinv <- sdiv 1 (detR 3 f) ;;
      inv <- for_ 0 3 (fun r => for_ 0 3 (fun c inv =>
             x <- mat_at 3 3 inv r c ;; mat_put 3 3 inv r c (smul x detinv))) A ;; Ok (true, inv)).
  { lit Hm. lit Hi. unfold mat_inverse3, mat_cof3.
    cbn -[IZR Rplus Rminus Rmult Ropp Rdiv Rinv for_ sdiv cofR detR sleb Rabs].
    match goal with |- (if sleb (Rabs ?d) tol then Ok (false, ?l) else _) = _ =>
      assert (ED : d = detR 3 f) by (dexp; ring);
      assert (EA : l = A) by (unfold A, cofR; dexp; repeat (apply (f_equal2 (@cons R)); [ring|]); reflexivity)
    end. rewrite EA. rewrite ED. reflexivity. }
  rewrite E. clear E. clearbody A.
  destruct (Rleb (Rabs (detR 3 f)) tol); cbn [negb].
  - split; [discriminate|]. split; [discriminate|]. intros _. exists A. split; [reflexivity|apply HA].
  - split; [|split; [|discriminate]].
    + intros _ Z. cbn [sdiv RScalar]. rewrite Reqb_true by exact Z. reflexivity.
    + intros _ Z. rewrite sdiv_R by exact Z. cbn [bind].
      destruct (mat_map_assign_s_spec 3 3 (fun x => Ok (smul x (1 / detR 3 f))) A _
        (fun i j => cofR 3 f j i * (1 / detR 3 f)) HA) as (x & E2 & Hx); [reflexivity|].
      exists x. split; [|exact Hx]. unfold mat_map_assign_s, mat_fill_rc in E2.
      replace (for_ 0 3 (fun r => for_ 0 3 (fun c inv => x <- mat_at 3 3 inv r c ;; mat_put 3 3 inv r c (smul x (1 / detR 3 f)))) A)
        with (Ok x); [reflexivity|].
      rewrite <- E2. unfold for_. apply for_n_ext. intros r y _. apply for_n_ext. intros c z _.
      rewrite bind_assoc. reflexivity.
Qed.

Lemma mat_inverse4_R m inv f g tol : repM 4 4 m f -> repM 4 4 inv g ->
  inv_result 4 f (negb (Rleb (Rabs (detR 4 f)) tol)) (mat_inverse4 m inv tol).
Proof.
  intros Hm Hi.
  pose (A := [cofR 4 f 0 0; cofR 4 f 0 1; cofR 4 f 0 2; cofR 4 f 0 3; cofR 4 f 1 0; cofR 4 f 1 1; cofR 4 f 1 2; cofR 4 f 1 3;
              cofR 4 f 2 0; cofR 4 f 2 1; cofR 4 f 2 2; cofR 4 f 2 3; cofR 4 f 3 0; cofR 4 f 3 1; cofR 4 f 3 2; cofR 4 f 3 3]).
  assert (HA : repM 4 4 A (fun i j => cofR 4 f j i)) by exact (repM_44 (fun i j => cofR 4 f j i)).
  assert (E : mat_inverse4 m inv tol =
    if Rleb (Rabs (detR 4 f)) tol then Ok (false, A)
    else detinv <- sdiv 1 (detR 4 f) ;;
      inv <- for_ 0 16 (fun i inv => x <- rd inv i ;; wr inv i (smul x detinv)) A ;; Ok (true, inv)).
  { lit Hm. lit Hi. unfold mat_inverse4.
    cbn -[IZR Rplus Rminus Rmult Ropp Rdiv Rinv for_ sdiv cofR detR sleb Rabs].
    match goal with |- (if sleb (Rabs ?d) tol then Ok (false, ?l) else _) = _ =>
      assert (ED : d = detR 4 f) by (dexp; ring);
      assert (EA : l = A) by (unfold A, cofR; dexp; repeat (apply (f_equal2 (@cons R)); [ring|]); reflexivity)
    end. rewrite EA. rewrite ED. reflexivity. }
  rewrite E. clear E. clearbody A.
  destruct (Rleb (Rabs (detR 4 f)) tol); cbn [negb].
  - split; [discriminate|]. split; [discriminate|]. intros _. exists A. split; [reflexivity|apply HA].
  - split; [|split; [|discriminate]].
    + intros _ Z. cbn [sdiv RScalar]. rewrite Reqb_true by exact Z. reflexivity.
    + intros _ Z. rewrite sdiv_R by exact Z. cbn [bind].
      destruct (scale_cells 4 16 A _ (1 / detR 4 f) eq_refl HA) as (x & E2 & Hx).
      exists x. split; [|exact Hx]. rewrite E2. reflexivity.
Qed.

Definition accepts (n : nat) (d tol : R) : bool :=
  if (n =? 2)%nat then negb (Rltb d tol) else negb (Rleb d tol).

Lemma mat_inverse_R n m inv f tol : (2 <= n <= 4)%nat -> repM n n m f -> length inv = (n * n)%nat ->
  inv_result n f (accepts n (Rabs (detR n f)) tol) (mat_inverse n m inv tol).
Proof.
  intros Hn Hm Hl. destruct (mat_rep n n inv Hl) as (g & Hg).
  destruct n as [|[|[|[|[|n]]]]]; try lia.
  - exact (mat_inverse2_R m inv f g tol Hm Hg).
  - exact (mat_inverse3_R m inv f g tol Hm Hg).
  - exact (mat_inverse4_R m inv f g tol Hm Hg).
Qed.
End Inv.
