(** Aliased products; minors, cofactors. *)
From Verif Require Export LMat4.
Local Open Scope R_scope.

Ltac dexp := cbn -[IZR Rplus Rminus Rmult Ropp Rdiv Rinv];
  unfold minor0, mmulR, cutR, idR; cbn -[IZR Rplus Rminus Rmult Ropp Rdiv Rinv].

(** The operand [a] of a member of [m] has the cells [fa]. *)
Definition arg_cells (M N : nat) (f : nat -> nat -> R) (a : arg R) (fa : nat -> nat -> R) : Prop :=
  match a with Val l => repM M N l fa | Self => fa = f end.

Section A.
Context {cfg : Cfg} {lim : RLim}.

Lemma mat_put_any M N (m : list R) h r c x : repM M N m h -> (r < M)%nat -> (c < N)%nat ->
  exists m', mat_put M N m r c x = Ok m' /\
    repM M N m' (fun i j => if (i =? r)%nat && (j =? c)%nat then x else h i j).
Proof. intros Hm Hr Hc. exact (mat_put_rep M N m h r c x Hm Hr Hc). Qed.

(** One cell of an aliased product: it is written, nothing else is. *)
Lemma multiply_cell M (m : list R) h left right fl fr r c :
  repM M M m h -> arg_cells M M h left fl -> arg_cells M M h right fr ->
  (left = Self \/ exists l, left = Val l) -> (r < M)%nat -> (c < M)%nat ->
  returns (m0 <- mat_put M M m r c szero ;;
    for_ 0 M (fun p m => a <- mat_at M M (argl m left) r p ;; b <- mat_at M M (argl m right) p c ;;
      x <- mat_at M M m r c ;; mat_put M M m r c (sadd x (smul a b))) m0)
    (fun m' => exists h', repM M M m' h' /\
       (forall i j, (i, j) <> (r, c) -> h' i j = h i j) /\
       (r = 0%nat -> c = 0%nat -> left = Self \/ right = Self ->
          h' 0%nat 0%nat = rsum M (fun p => if (p =? 0)%nat then 0 else fl 0%nat p * fr p 0%nat))).
Proof.
  intros Hm Hl Hr _ Hrm Hcm.
  destruct (mat_put_any M M m h r c szero Hm Hrm Hcm) as (m0 & E0 & H0). rewrite E0. cbn [bind].
  eapply returns_impl; [apply (for_inv (fun p m' => exists h', repM M M m' h' /\
     (forall i j, (i, j) <> (r, c) -> h' i j = h i j) /\
     (r = 0%nat -> c = 0%nat -> left = Self \/ right = Self ->
          h' 0%nat 0%nat = rsum p (fun p => if (p =? 0)%nat then 0 else fl 0%nat p * fr p 0%nat))));
    [lia| |]|intros x Hx; exact Hx].
  - eexists. split; [exact H0|]. split.
    + intros i j Hne. cbv beta. destruct (Nat.eqb_spec i r), (Nat.eqb_spec j c); subst; cbn; auto. congruence.
    + intros -> -> _. reflexivity.
  - intros p x Hp (hx & Hx & Hoth & Hv).
    assert (AL : exists al, mat_at M M (argl x left) r p = Ok al /\ (r = 0%nat -> p <> 0%nat -> c = 0%nat -> al = fl 0%nat p) /\
      (r = 0%nat -> c = 0%nat -> p = 0%nat -> left = Self -> al = hx 0%nat 0%nat)).
    { destruct left as [l|]; cbn [argl].
      - exists (fl r p). split; [apply mat_at_ok; auto; lia|]. split; [intros -> _ _; reflexivity|congruence].
      - exists (hx r p). split; [apply mat_at_ok; auto; lia|]. split.
        + intros -> Hne ->. cbn in Hl. subst fl. apply Hoth. congruence.
        + intros -> -> -> _. reflexivity. }
    assert (AR : exists ar, mat_at M M (argl x right) p c = Ok ar /\ (r = 0%nat -> p <> 0%nat -> c = 0%nat -> ar = fr p 0%nat) /\
      (r = 0%nat -> c = 0%nat -> p = 0%nat -> right = Self -> ar = hx 0%nat 0%nat)).
    { destruct right as [l|]; cbn [argl].
      - exists (fr p c). split; [apply mat_at_ok; auto; lia|]. split; [intros _ _ ->; reflexivity|congruence].
      - exists (hx p c). split; [apply mat_at_ok; auto; lia|]. split.
        + intros -> Hne ->. cbn in Hr. subst fr. apply Hoth. congruence.
        + intros -> -> -> _. reflexivity. }
    destruct AL as (al & -> & A1 & A2), AR as (ar & -> & B1 & B2). cbn [bind].
    rewrite (mat_at_ok M M x hx) by auto. cbn [bind].
    destruct (mat_put_any M M x hx r c (sadd (hx r c) (smul al ar)) Hx Hrm Hcm) as (x' & E' & H'). rewrite E'.
    apply returns_ok. eexists. split; [exact H'|]. split.
    + intros i j Hne. cbv beta. destruct (Nat.eqb_spec i r), (Nat.eqb_spec j c); subst; cbn; auto. congruence.
    + intros -> -> HS. cbv beta. rewrite !Nat.eqb_refl. cbn [andb rsum]. rewrite <- (Hv eq_refl eq_refl HS).
      destruct (Nat.eqb_spec p 0) as [->|Hne].
      * assert (Z : hx 0%nat 0%nat = 0) by (rewrite (Hv eq_refl eq_refl HS); reflexivity).
        cbn [sadd smul RScalar]. rewrite Z. destruct HS as [S|S].
        -- rewrite (A2 eq_refl eq_refl eq_refl S), Z. ring.
        -- rewrite (B2 eq_refl eq_refl eq_refl S), Z. ring.
      * rewrite A1, B1 by auto. reflexivity.
Qed.

Lemma multiply_aliased M (m : list R) f left right fl fr :
  (0 < M)%nat -> repM M M m f -> arg_cells M M f left fl -> arg_cells M M f right fr ->
  left = Self \/ right = Self ->
  returns (mat_multiply M M M m left right)
    (fun m' => length m' = (M * M)%nat /\
       mat_at M M m' 0 0 = Ok (rsum M (fun p => if (p =? 0)%nat then 0 else fl 0%nat p * fr p 0%nat))).
Proof.
  intros HM Hm Hl Hr HS. unfold mat_multiply.
  assert (TRIV : forall a : arg R, a = Self \/ exists l, a = Val l) by (intros [l|]; eauto).
  set (V := rsum M _).
  (* later cells only need some cell function for the operands *)
  assert (LATER : forall r c x, (r < M)%nat -> (c < M)%nat -> (r, c) <> (0%nat, 0%nat) ->
    (exists h, repM M M x h /\ h 0%nat 0%nat = V) ->
    returns (m0 <- mat_put M M x r c szero ;;
      for_ 0 M (fun p m => a <- mat_at M M (argl m left) r p ;; b <- mat_at M M (argl m right) p c ;;
        x <- mat_at M M m r c ;; mat_put M M m r c (sadd x (smul a b))) m0)
      (fun m' => exists h', repM M M m' h' /\ h' 0%nat 0%nat = V)).
  { intros r c x Hrm Hcm Hne (h & Hx & HV).
    eapply returns_impl; [eapply (multiply_cell M x h left right
      (match left with Val _ => fl | Self => h end) (match right with Val _ => fr | Self => h end) r c Hx); auto|].
    - destruct left; [exact Hl|reflexivity].
    - destruct right; [exact Hr|reflexivity].
    - intros m' (h' & H' & Ho & _). exists h'. split; [exact H'|]. rewrite Ho by congruence. exact HV. }
  rewrite for_step by lia.
  assert (FIRST : returns (for_ 0 M (fun c m => m0 <- mat_put M M m 0 c szero ;;
      for_ 0 M (fun p m => a <- mat_at M M (argl m left) 0 p ;; b <- mat_at M M (argl m right) p c ;;
        x <- mat_at M M m 0 c ;; mat_put M M m 0 c (sadd x (smul a b))) m0) m)
      (fun x => exists h, repM M M x h /\ h 0%nat 0%nat = V)).
  { rewrite for_step by lia. eapply returns_bind.
    - apply (multiply_cell M m f left right fl fr 0 0 Hm Hl Hr); auto; lia.
    - intros x (h & Hx & _ & HV). specialize (HV eq_refl eq_refl HS).
      apply (for_inv (fun _ x => exists h, repM M M x h /\ h 0%nat 0%nat = V)); [lia|eauto|].
      intros c y Hc Hy. apply LATER; auto; try lia. intros E; inversion E; lia. }
  eapply returns_bind; [exact FIRST|]. intros x Hx.
  eapply returns_impl; [apply (for_inv (fun _ x => exists h, repM M M x h /\ h 0%nat 0%nat = V)); [lia|exact Hx|]|].
  - intros r y Hr1 Hy. apply (for_inv (fun _ x => exists h, repM M M x h /\ h 0%nat 0%nat = V)); [lia|exact Hy|].
    intros c z Hc Hz. apply LATER; auto; try lia. intros E; inversion E; lia.
  - intros y (h & Hy & HV). split; [apply Hy|]. rewrite (mat_at_ok M M y h 0 0 Hy) by lia. rewrite HV. reflexivity.
Qed.
End A.

(** Minors: the index arithmetic, for every size. *)
Section Minor.
Context {cfg : Cfg} {T : Type} {ST : Scalar T}.
Implicit Types m : list T.

Definition cutT (f : nat -> nat -> T) (r c i j : nat) : T :=
  f (if (i <? r)%nat then i else S i) (if (j <? c)%nat then j else S j).

Definition adv (k cut : nat) : nat := if (k <=? cut)%nat then k else (k - 1)%nat.

Lemma minor_cells n m minor f g rc cc :
  repM n n m f -> repM (n - 1) (n - 1) minor g -> (rc < n)%nat -> (cc < n)%nat ->
  returns (for_ 0 n (fun r '(minor, ro) =>
     if r =? rc then Ok (minor, 1%nat)
     else
       '(minor, _) <- for_ 0 n (fun c '(minor, co) =>
          if c =? cc then Ok (minor, 1%nat)
          else x <- mat_at n n m r c ;;
               minor <- mat_put (n - 1) (n - 1) minor (r - ro) (c - co) x ;;
               Ok (minor, co)) (minor, 0%nat) ;;
       Ok (minor, ro)) (minor, 0%nat))
    (fun '(x, _) => repM (n - 1) (n - 1) x (cutT f rc cc)).
Proof.
  intros Hm Hg Hrc Hcc.
  eapply returns_impl; [apply (for_inv (fun r '(x, ro) =>
     ro = (if (r <=? rc)%nat then 0 else 1)%nat /\
     repM (n - 1) (n - 1) x (fun i j => if (i <? adv r rc)%nat then cutT f rc cc i j else g i j))); [lia| |]|].
  - split; [reflexivity|]. eapply repM_ext; [exact Hg|]. intros i j _ _. unfold adv. cbn. reflexivity.
  - intros r [x ro] Hr (-> & Hx). destruct (Nat.eqb_spec r rc) as [->|Hne].
    + apply returns_ok. split; [destruct (Nat.leb_spec (S rc) rc); [lia|reflexivity]|].
      eapply repM_ext; [exact Hx|]. intros i j _ _; cbv beta. unfold adv.
      destruct (Nat.leb_spec rc rc), (Nat.leb_spec (S rc) rc); try lia.
      replace (S rc - 1)%nat with rc by lia. reflexivity.
    + eapply returns_bind; [apply (for_inv (fun c '(x, co) =>
         co = (if (c <=? cc)%nat then 0 else 1)%nat /\
         repM (n - 1) (n - 1) x (fun i j =>
           if (i <? adv r rc)%nat || ((i =? adv r rc)%nat && (j <? adv c cc)%nat) then cutT f rc cc i j else g i j))); [lia| |]|].
      * split; [reflexivity|]. eapply repM_ext; [exact Hx|]. intros i j _ _; cbv beta. unfold adv at 3. cbn [Nat.leb].
        replace (j <? 0)%nat with false by (symmetry; apply Nat.ltb_ge; lia). rewrite andb_false_r, orb_false_r. reflexivity.
      * intros c [y co] Hc (-> & Hy). destruct (Nat.eqb_spec c cc) as [->|Hnc].
        -- apply returns_ok. split; [destruct (Nat.leb_spec (S cc) cc); [lia|reflexivity]|].
           eapply repM_ext; [exact Hy|]. intros i j _ _; cbv beta. unfold adv.
           destruct (Nat.leb_spec cc cc), (Nat.leb_spec (S cc) cc); try lia.
           replace (S cc - 1)%nat with cc by lia. reflexivity.
        -- rewrite (mat_at_ok n n m f) by (auto; lia). cbn [bind].
           assert (ER : (r - (if (r <=? rc)%nat then 0 else 1) = adv r rc)%nat)
             by (unfold adv; destruct (Nat.leb_spec r rc); lia).
           assert (EC : (c - (if (c <=? cc)%nat then 0 else 1) = adv c cc)%nat)
             by (unfold adv; destruct (Nat.leb_spec c cc); lia).
           rewrite ER, EC.
           assert (LR : (adv r rc < n - 1)%nat) by (unfold adv; destruct (Nat.leb_spec r rc); lia).
           assert (LC : (adv c cc < n - 1)%nat) by (unfold adv; destruct (Nat.leb_spec c cc); lia).
           eapply returns_bind; [apply (mat_put_rep (n - 1) (n - 1) y _ (adv r rc) (adv c cc) (f r c) Hy LR LC)|].
           intros y' Hy'. apply returns_ok.
           assert (AC : (adv (S c) cc = S (adv c cc))%nat)
             by (unfold adv; destruct (Nat.leb_spec c cc), (Nat.leb_spec (S c) cc); lia).
           split; [destruct (Nat.leb_spec c cc), (Nat.leb_spec (S c) cc); try reflexivity; lia|].
           eapply repM_ext; [exact Hy'|]. intros i j _ _; cbv beta. rewrite AC.
           destruct (Nat.eqb_spec i (adv r rc)) as [->|Hi]; cbn [andb].
           ++ destruct (Nat.eqb_spec j (adv c cc)) as [->|Hj].
              ** rewrite Nat.ltb_irrefl. destruct (Nat.ltb_spec (adv c cc) (S (adv c cc))); [|lia]. cbn [orb].
                 unfold cutT, adv. destruct (Nat.leb_spec r rc), (Nat.leb_spec c cc);
                   repeat match goal with |- context[(?a <? ?b)%nat] => destruct (Nat.ltb_spec a b); try lia end;
                   f_equal; lia.
              ** destruct (Nat.ltb_spec j (adv c cc)), (Nat.ltb_spec j (S (adv c cc))); try lia; reflexivity.
           ++ rewrite !orb_false_r. reflexivity.
      * intros [y co] (_ & Hy). apply returns_ok.
        split; [destruct (Nat.leb_spec r rc), (Nat.leb_spec (S r) rc); try reflexivity; lia|].
        eapply repM_ext; [exact Hy|]. intros i j _ Hj; cbv beta.
        assert (AR : (adv (S r) rc = S (adv r rc))%nat)
          by (unfold adv; destruct (Nat.leb_spec r rc), (Nat.leb_spec (S r) rc); lia).
        rewrite AR. assert (AN : (adv n cc = n - 1)%nat) by (unfold adv; destruct (Nat.leb_spec n cc); lia). rewrite AN.
        destruct (Nat.ltb_spec j (n - 1)); [|lia]. rewrite andb_true_r.
        destruct (Nat.ltb_spec i (adv r rc)), (Nat.eqb_spec i (adv r rc)), (Nat.ltb_spec i (S (adv r rc))); try lia; reflexivity.
  - intros [x ro] (_ & Hx). eapply repM_ext; [exact Hx|]. intros i j Hi _; cbv beta.
    assert (AN : (adv n rc = n - 1)%nat) by (unfold adv; destruct (Nat.leb_spec n rc); lia). rewrite AN.
    destruct (Nat.ltb_spec i (n - 1)); [reflexivity|lia].
Qed.
End Minor.

Section Cof.
Context {cfg : Cfg} {lim : RLim}.

Lemma mat_get_minor_R n m minor f g rc cc :
  (2 <= n <= 5)%nat -> repM n n m f -> repM (n - 1) (n - 1) minor g -> (rc < n)%nat -> (cc < n)%nat ->
  returns (mat_get_minor n m minor rc cc)
    (fun '(d, x) => d = detR (n - 1) (cutR f rc cc) /\ repM (n - 1) (n - 1) x (cutR f rc cc)).
Proof.
  intros Hn Hm Hg Hr Hc. unfold mat_get_minor.
  eapply returns_bind; [exact (minor_cells n m minor f g rc cc Hm Hg Hr Hc)|].
  intros [x ro] Hx. rewrite (mat_det_R (n - 1) x (cutR f rc cc)) by (auto; lia). cbn [bind].
  apply returns_ok. split; [reflexivity|exact Hx].
Qed.

Lemma pow_m1 k : (-1) ^ k = if Nat.odd k then -1 else 1.
Proof.
  induction k as [|k IH]; [reflexivity|]. cbn [pow]. rewrite IH, Nat.odd_succ, <- Nat.negb_odd.
  destruct (Nat.odd k); cbn [negb]; lra.
Qed.

Lemma mat_get_cofactors_R n m cof f g :
  (2 <= n <= 5)%nat -> repM n n m f -> repM n n cof g ->
  returns (mat_get_cofactors n (Val m) cof) (fun x => repM n n x (cofR n f)).
Proof.
  intros Hn Hm Hg. unfold mat_get_cofactors.
  destruct (mat_default_spec (n - 1) (n - 1)) as (mn & -> & Hmn). cbn [bind argl].
  eapply returns_bind; [apply (for_inv (fun r '(x, mn) => (exists h, repM (n - 1) (n - 1) mn h) /\
     repM n n x (fun i j => if (i <? r)%nat then cofR n f i j else g i j))); [lia| |]|].
  - split; [eauto|]. eapply repM_ext; [exact Hg|]. intros; reflexivity.
  - intros r [x mn1] Hr (Hmn1 & Hx).
    eapply returns_impl; [apply (for_inv (fun c '(x, mn) => (exists h, repM (n - 1) (n - 1) mn h) /\
      repM n n x (fun i j => if (i <? r)%nat || ((i =? r)%nat && (j <? c)%nat) then cofR n f i j else g i j))); [lia| |]|].
    + split; [exact Hmn1|]. eapply repM_ext; [exact Hx|]. intros i j _ _; cbv beta.
      replace (j <? 0)%nat with false by (symmetry; apply Nat.ltb_ge; lia). rewrite andb_false_r, orb_false_r. reflexivity.
    + intros c [y mn2] Hc ((h & Hmn2) & Hy).
      eapply returns_bind; [apply (mat_get_minor_R n m mn2 f h r c Hn Hm Hmn2); lia|].
      intros [d mn3] (-> & Hmn3). cbv beta.
      eapply returns_bind; [apply (mat_put_rep n n y _ r c (if Nat.odd (r + c) then sopp (detR (n - 1) (cutR f r c)) else detR (n - 1) (cutR f r c)) Hy); lia|].
      intros y' Hy'. apply returns_ok. split; [eauto|]. eapply repM_ext; [exact Hy'|]. intros i j _ _; cbv beta.
      destruct (Nat.eqb_spec i r) as [->|Hi]; cbn [andb].
      * destruct (Nat.eqb_spec j c) as [->|Hj].
        -- rewrite Nat.ltb_irrefl. destruct (Nat.ltb_spec c (S c)); [|lia]. cbn [orb]. unfold cofR.
           rewrite pow_m1. destruct (Nat.odd (r + c)); cbn [sopp RScalar]; ring.
        -- destruct (Nat.ltb_spec j c), (Nat.ltb_spec j (S c)); try lia; reflexivity.
      * reflexivity.
    + intros [y mn2] (Hmn2 & Hy). split; [exact Hmn2|]. eapply repM_ext; [exact Hy|]. intros i j _ Hj; cbv beta.
      destruct (Nat.ltb_spec j n); [|lia]. rewrite andb_true_r.
      destruct (Nat.ltb_spec i r), (Nat.eqb_spec i r), (Nat.ltb_spec i (S r)); try lia; reflexivity.
  - intros [x mn1] (_ & Hx). apply returns_ok. eapply repM_ext; [exact Hx|]. intros i j Hi _; cbv beta.
    destruct (Nat.ltb_spec i n); [reflexivity|lia].
Qed.

Lemma mat_get_adjugate_R n m adj f g :
  (2 <= n <= 5)%nat -> repM n n m f -> repM n n adj g ->
  returns (mat_get_adjugate n (Val m) adj) (fun x => repM n n x (fun i j => cofR n f j i)).
Proof.
  intros Hn Hm Hg. unfold mat_get_adjugate.
  eapply returns_bind; [apply (mat_get_cofactors_R n m adj f g Hn Hm Hg)|]. intros c Hc.
  eapply returns_bind; [apply (mat_transpose_spec n n c _ Hc)|]. intros t Ht.
  destruct (mat_assign_spec n n c t _ _ Hc Ht) as [E _]. rewrite E. apply returns_ok. exact Ht.
Qed.

(** A * adj A = adj A * A = det A * I. *)
Lemma adj_left n f i j : (2 <= n <= 4)%nat -> (i < n)%nat -> (j < n)%nat ->
  mmulR n f (fun i j => cofR n f j i) i j = detR n f * idR i j.
Proof.
  intros Hn Hi Hj. destruct n as [|[|[|[|[|n]]]]]; try lia; cell4 i Hi; cell4 j Hj; unfold cofR; dexp; ring.
Qed.
Lemma adj_right n f i j : (2 <= n <= 4)%nat -> (i < n)%nat -> (j < n)%nat ->
  mmulR n (fun i j => cofR n f j i) f i j = detR n f * idR i j.
Proof.
  intros Hn Hi Hj. destruct n as [|[|[|[|[|n]]]]]; try lia; cell4 i Hi; cell4 j Hj; unfold cofR; dexp; ring.
Qed.
End Cof.
