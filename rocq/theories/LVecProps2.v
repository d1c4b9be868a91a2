(** Further lemmas behind the vector properties C46-C56. *)
From Verif Require Export LVecProps.
Local Open Scope nat_scope.

Section G.
Context {cfg : Cfg} {T : Type} {ST : Scalar T}.

Lemma fill_const M (v : list T) f a : repV M v f ->
  returns (for_ 0 M (fun i v => wr v i a) v) (fun r => repV M r (fun _ => a)).
Proof. intros Hv. eapply fill1_all; [exact Hv|]. reflexivity. Qed.

Lemma vec_assign_fill_spec M (v : list T) f a : repV M v f ->
  returns (vec_assign_fill M v a) (fun r => repV M r (fun _ => a)).
Proof.
  intros Hv. eapply fill1_all; [exact Hv|]. intros i l Hi Hl; cbv beta. apply vset_ok; exact Hi.
Qed.

Lemma copy_prefix n (src dst : list T) fs fd ns nd :
  repV ns src fs -> repV nd dst fd -> n <= ns -> n <= nd ->
  returns (copy_n n src 0 dst 0)
    (fun r => repV nd r (fun k => if k <? n then fs k else fd k)).
Proof.
  intros Hs Hd H1 H2.
  eapply returns_impl; [apply (copy_n_spec n src 0 dst 0 fs fd ns nd Hs Hd); lia|].
  intros r Hr. eapply repV_ext; [exact Hr|]. intros k Hk; cbn. rewrite Nat.sub_0_r; reflexivity.
Qed.

Lemma copy_prefix_loop n (src dst : list T) fs fd ns nd :
  repV ns src fs -> repV nd dst fd -> n <= ns -> n <= nd ->
  returns (for_ 0 n (fun i g => x <- rd src i ;; wr g i x) dst)
    (fun r => repV nd r (fun k => if k <? n then fs k else fd k)).
Proof. intros. apply (copy_prefix n src dst fs fd ns nd); assumption. Qed.

Lemma copy_short_ub n (src dst : list T) :
  length src < n -> length src < length dst ->
  for_ 0 n (fun i g => x <- rd src i ;; wr g i x) dst = UB.
Proof.
  intros H1 H2.
  assert (K : forall m, m <= length src ->
    returns (for_ 0 m (fun i g => x <- rd src i ;; wr g i x) dst) (fun d => length d = length dst)).
  { intros m Hm. apply (for_inv (fun _ d => length d = length dst)); [lia|reflexivity|].
    intros k x Hk Hx. destruct (nth_error src k) as [a|] eqn:E.
    - rewrite (rd_ok src k a E). cbn [bind]. rewrite wr_ok by lia. apply returns_ok.
      rewrite length_upd; exact Hx.
    - apply nth_error_None in E; lia. }
  assert (E : forall m, length src < m -> for_ 0 m (fun i g => x <- rd src i ;; wr g i x) dst = UB).
  { induction m as [|m IH]; intros Hm; [lia|]. rewrite for_last by lia.
    destruct (Nat.eq_dec m (length src)) as [->|Hne].
    - destruct (K (length src) ltac:(lia)) as (d & Ed & _). rewrite Ed. cbn [bind].
      rewrite rd_ub by lia. reflexivity.
    - rewrite IH by lia. reflexivity. }
  apply E; exact H1.
Qed.

Lemma vec_cast_spec {U} (cast : U -> T) M (v : list T) (src : list U) f fs n :
  repV M v f -> repV n src fs -> M <= n ->
  returns (vec_cast_from cast M v src) (fun r => repV M r (fun i => cast (fs i))).
Proof.
  intros Hv [Ls Hs] Hn. eapply fill1_all; [exact Hv|]. intros i l Hi Hl; cbv beta.
  rewrite (rd_ok src i (fs i)) by (apply Hs; lia). reflexivity.
Qed.

Lemma vec_to_hom_spec M (g src : list T) fg f :
  repV (M + 1) g fg -> repV M src f ->
  returns (vec_to_hom (M + 1) g src) (fun r => repV (M + 1) r (fun i => if i <? M then f i else sone)).
Proof.
  intros Hg Hs. unfold vec_to_hom. replace (M + 1 - 1) with M by lia.
  eapply returns_bind; [apply (copy_prefix M src g f fg M (M + 1)); auto; lia|].
  intros v Hv. rewrite vset_ok by lia.
  destruct (repV_wr (M + 1) v _ M sone Hv ltac:(lia)) as [E HR]. rewrite E. apply returns_ok.
  eapply repV_ext; [exact HR|]. intros k Hk; cbv beta.
  destruct (Nat.eqb_spec k M) as [->|Hne]; [rewrite Nat.ltb_irrefl; reflexivity|].
  destruct (Nat.ltb_spec k M); auto; lia.
Qed.

Lemma vec_clamp_spec M (v : list T) f mn mx : repV M v f ->
  returns (vec_clamp M v mn mx) (fun r => repV M r (fun i =>
    let x := if sltb (f i) mn then mn else f i in if sltb mx x then mx else x)).
Proof.
  intros Hv. unfold vec_clamp.
  eapply returns_impl; [apply (for_inv (fun i r => repV M r (fun k => if k <? i then
      (let x := if sltb (f k) mn then mn else f k in if sltb mx x then mx else x) else f k))); [lia| |]|].
  - eapply repV_ext; [exact Hv|]. reflexivity.
  - intros i l Hi Hl.
    rewrite (repV_rd M l _ i Hl) by lia. rewrite Nat.ltb_irrefl. cbn [bind].
    set (x := if sltb (f i) mn then mn else f i).
    assert (E1 : returns (if sltb (f i) mn then wr l i mn else Ok l)
       (fun l' => repV M l' (fun k => if k =? i then x else
          if k <? i then (let x := if sltb (f k) mn then mn else f k in if sltb mx x then mx else x) else f k))).
    { unfold x. destruct (sltb (f i) mn) eqn:E.
      - destruct (repV_wr M l _ i mn Hl ltac:(lia)) as [Ew HR]. rewrite Ew. apply returns_ok. exact HR.
      - apply returns_ok. eapply repV_ext; [exact Hl|]. intros k Hk; cbv beta.
        destruct (Nat.eqb_spec k i) as [->|Hne]; auto. rewrite Nat.ltb_irrefl; reflexivity. }
    eapply returns_bind; [exact E1|]. intros l' Hl'.
    rewrite (repV_rd M l' _ i Hl') by lia. rewrite Nat.eqb_refl. cbn [bind].
    destruct (sltb mx x) eqn:E.
    + destruct (repV_wr M l' _ i mx Hl' ltac:(lia)) as [Ew HR]. rewrite Ew. apply returns_ok.
      eapply repV_ext; [exact HR|]. intros k Hk; cbv beta.
      destruct (Nat.eqb_spec k i) as [->|Hne].
      * destruct (Nat.ltb_spec i (S i)); [|lia]. cbv zeta. fold x. rewrite E; reflexivity.
      * destruct (Nat.ltb_spec k i), (Nat.ltb_spec k (S i)); auto; lia.
    + apply returns_ok. eapply repV_ext; [exact Hl'|]. intros k Hk; cbv beta.
      destruct (Nat.eqb_spec k i) as [->|Hne].
      * destruct (Nat.ltb_spec i (S i)); [|lia]. cbv zeta. fold x. rewrite E; reflexivity.
      * destruct (Nat.ltb_spec k i), (Nat.ltb_spec k (S i)); auto; lia.
  - intros r Hr. eapply repV_ext; [exact Hr|]. intros k Hk; cbv beta.
    destruct (Nat.ltb_spec k M); auto; lia.
Qed.

Lemma vec_map_inplace M (op : T -> res T) (v : list T) f g : repV M v f ->
  (forall i, i < M -> op (f i) = Ok (g i)) ->
  returns (for_ 0 M (fun i v => a <- rd v i ;; x <- op a ;; wr v i x) v) (fun r => repV M r g).
Proof.
  intros Hv Hop. eapply fill1_all; [exact Hv|]. intros i l Hi Hl; cbv beta.
  rewrite (repV_rd M l _ i Hl Hi), Nat.ltb_irrefl. cbn [bind]. rewrite Hop by exact Hi. reflexivity.
Qed.

Lemma vec_reciprocal_safe_spec M (v : list T) f g : repV M v f ->
  (forall i, i < M -> if seqb (f i) szero then g i = smax else sdiv sone (f i) = Ok (g i)) ->
  returns (vec_reciprocal_safe M v) (fun r => repV M r g).
Proof.
  intros Hv Hop. eapply fill1_all; [exact Hv|]. intros i l Hi Hl; cbv beta.
  rewrite (repV_rd M l _ i Hl Hi), Nat.ltb_irrefl. cbn [bind].
  specialize (Hop i Hi). destruct (seqb (f i) szero).
  - rewrite Hop; reflexivity.
  - rewrite Hop; reflexivity.
Qed.

Lemma vec_minmax_spec M (u v : list T) fu fv : repV M u fu -> repV M v fv ->
  returns (vec_min M u v) (fun r => repV M r (fun i => if sltb (fv i) (fu i) then fv i else fu i)) /\
  returns (vec_max M u v) (fun r => repV M r (fun i => if sltb (fu i) (fv i) then fv i else fu i)).
Proof.
  intros Hu Hv. split; (eapply fill1_all; [apply vec_default_rep|]; intros i l Hi Hl; cbv beta;
  rewrite (repV_rd M u fu), (repV_rd M v fv) by auto; reflexivity).
Qed.

(** Vector::perturb and set_random. *)
Lemma vec_perturb_spec rnd M (v : list T) f p s : repV M v f ->
  returns (vec_perturb rnd M v p s) (fun '(r, s') =>
    repV M r (fun i => sadd (f i) (if Z.odd (rnd (fst s) (snd s + i)%nat) then p else sopp p)) /\
    s' = (fst s, snd s + M)).
Proof.
  intros Hv. unfold vec_perturb.
  eapply returns_impl; [apply (for_inv (fun i '(r, s') => repV M r (fun k => if k <? i then
     sadd (f k) (if Z.odd (rnd (fst s) (snd s + k)%nat) then p else sopp p) else f k) /\
     s' = (fst s, snd s + i))); [lia| |]|].
  - split; [eapply repV_ext; [exact Hv|]; reflexivity|]. rewrite Nat.add_0_r. destruct s; reflexivity.
  - intros i [l s'] Hi [Hl ->]. cbn [rand_next fst snd].
    rewrite (repV_rd M l _ i Hl) by lia. rewrite Nat.ltb_irrefl. cbn [bind].
    set (x := sadd _ _). destruct (repV_wr M l _ i x Hl ltac:(lia)) as [E HR]. rewrite E. cbn [bind].
    apply returns_ok. split; [|rewrite Nat.add_succ_r; reflexivity].
    eapply repV_ext; [exact HR|]. intros k Hk; cbv beta.
    destruct (Nat.eqb_spec k i) as [->|Hne].
    + destruct (Nat.ltb_spec i (S i)); [reflexivity|lia].
    + destruct (Nat.ltb_spec k i), (Nat.ltb_spec k (S i)); auto; lia.
  - intros [r s'] [Hr ->]. split; [|reflexivity]. eapply repV_ext; [exact Hr|].
    intros k Hk; cbv beta. destruct (Nat.ltb_spec k M); auto; lia.
Qed.

Lemma vec_set_random_spec rnd RAND_MAX (ofZ : Z -> T) M (v : list T) f seed s q :
  repV M v f ->
  let s0 := if (0 <=? seed)%Z then (seed, 0) else s in
  (forall i, i < M -> sdiv (ofZ (rnd (fst s0) (snd s0 + i)%nat)) (ofZ RAND_MAX) = Ok (q i)) ->
  returns (vec_set_random rnd RAND_MAX ofZ M v seed s) (fun '(r, s') =>
    repV M r (fun i => sadd (sopp sone) (smul stwo (q i))) /\ s' = (fst s0, snd s0 + M)).
Proof.
  intros Hv s0 Hq. unfold vec_set_random. fold s0.
  eapply returns_impl; [apply (for_inv (fun i '(r, s') => repV M r (fun k => if k <? i then
     sadd (sopp sone) (smul stwo (q k)) else f k) /\
     s' = (fst s0, snd s0 + i))); [lia| |]|].
  - split; [eapply repV_ext; [exact Hv|]; reflexivity|]. rewrite Nat.add_0_r. destruct s0; reflexivity.
  - intros i [l s'] Hi [Hl ->]. cbn [rand_next fst snd].
    rewrite Hq by lia. cbn [bind].
    set (x := sadd _ _). rewrite vset_ok by lia.
    destruct (repV_wr M l _ i x Hl ltac:(lia)) as [E HR]. rewrite E. cbn [bind].
    apply returns_ok. split; [|rewrite Nat.add_succ_r; reflexivity].
    eapply repV_ext; [exact HR|]. intros k Hk; cbv beta.
    destruct (Nat.eqb_spec k i) as [->|Hne].
    + destruct (Nat.ltb_spec i (S i)); [reflexivity|lia].
    + destruct (Nat.ltb_spec k i), (Nat.ltb_spec k (S i)); auto; lia.
  - intros [r s'] [Hr ->]. split; [|reflexivity]. eapply repV_ext; [exact Hr|].
    intros k Hk; cbv beta. destruct (Nat.ltb_spec k M); auto; lia.
Qed.

Lemma vec_nnz_spec M (v : list T) f : repV M v f ->
  vec_nnz M v = Ok (length (filter (fun i => negb (seqb (f i) szero)) (seq 0 M))).
Proof.
  intros Hv. unfold vec_nnz.
  destruct (for_inv (fun i n => n = length (filter (fun i => negb (seqb (f i) szero)) (seq 0 i)))
     0 M (fun i n => a <- rd v i ;; Ok (if seqb a szero then n else S n)) 0) as (n & E & ->);
    auto; try lia.
  intros k n Hk ->. rewrite (repV_rd M v f) by (auto; lia). cbn [bind]. apply returns_ok.
  rewrite seq_S, filter_app, app_length. cbn. destruct (seqb (f k) szero); cbn; lia.
Qed.

(** product() *)
Fixpoint sprod (n : nat) (f : nat -> T) : T :=
  match n with O => f 0 | S n' => smul (sprod n' f) (f (S n')) end.
Lemma vec_product_spec M (v : list T) f : 0 < M -> repV M v f ->
  vec_product M v = Ok (sprod (M - 1) f).
Proof.
  intros HM Hv. unfold vec_product. rewrite (vat_ok M v f) by auto. cbn [bind].
  destruct (for_inv (fun i r => r = sprod (i - 1) f) 1 M
     (fun i r => a <- vat M v i ;; Ok (smul r a)) (f 0)) as (r & E & ->); auto; try lia.
  intros k r Hk ->. rewrite (vat_ok M v f) by (auto; lia). cbn [bind]. apply returns_ok.
  destruct k as [|k]; [lia|]. cbn. rewrite Nat.sub_0_r. reflexivity.
Qed.
End G.

Lemma sprod_R `{RLim} M f : 0 < M -> sprod (M - 1) f = rprod M f.
Proof.
  destruct M as [|M]; [lia|]. intros _. cbn [Nat.sub]. rewrite Nat.sub_0_r.
  induction M as [|M IH]; cbn [sprod rprod].
  - cbn. lra.
  - rewrite IH. reflexivity.
Qed.

Lemma is_unit_vector_R (cfg : Cfg) `{RLim} M (v : list R) f : repV M v f ->
  returns (vec_is_unit_vector M v) (fun b => b = true <->
    exists k, k < M /\ f k = 1%R /\ forall i, i < M -> i <> k -> f i = 0%R).
Proof.
  intros Hv. unfold vec_is_unit_vector.
  eapply returns_bind;
    [eapply (forr_inv (fun m (one : bool) =>
        if one then exists k, k < m /\ f k = 1%R /\ forall i, i < m -> i <> k -> f i = 0%R
        else forall i, i < m -> f i = 0%R)
      (fun b => b = true <-> exists k, k < M /\ f k = 1%R /\ forall i, i < M -> i <> k -> f i = 0%R));
     [lia|intros; lia|]|].
  - intros m one Hm IH. rewrite (repV_rd M v f) by (auto; lia). cbn [bind]. cbn [seqb sone szero RScalar].
    destruct (Reqb_spec (f m) 1) as [E1|E1].
    + destruct one; apply returns_ok.
      * split; [discriminate|]. intros (k & Hk & Ek & Hz). destruct IH as (k' & Hk' & Ek' & Hz').
        destruct (Nat.eq_dec m k) as [->|Hne].
        -- rewrite Hz in Ek' by lia. lra.
        -- rewrite Hz in E1 by lia. lra.
      * exists m. split; [lia|]. split; [exact E1|]. intros i Hi Hne. apply IH; lia.
    + destruct (Reqb_spec (f m) 0) as [E0|E0]; cbn [negb]; apply returns_ok.
      * destruct one.
        -- destruct IH as (k & Hk & Ek & Hz). exists k. split; [lia|]. split; [exact Ek|].
           intros i Hi Hne. destruct (Nat.eq_dec i m) as [->|Hne2]; [exact E0|apply Hz; lia].
        -- intros i Hi. destruct (Nat.eq_dec i m) as [->|Hne2]; [exact E0|apply IH; lia].
      * split; [discriminate|]. intros (k & Hk & Ek & Hz).
        destruct (Nat.eq_dec m k) as [->|Hne]; [contradiction|]. rewrite Hz in E0 by lia. lra.
  - intros [one|b] Hb; apply returns_ok; cbv beta; [|exact Hb].
    destruct one; split; auto; try discriminate.
    intros (k & Hk & Ek & Hz). rewrite Hb in Ek by lia. lra.
Qed.

Local Open Scope R_scope.
Section Geo.
Context (cfg : Cfg) (lim : RLim).

Lemma fn4_len x y z w :
  lenR 4 (fun i => match i with 0%nat => x | 1%nat => y | 2%nat => z | _ => w end)
  = sqrt (x * x + y * y + z * z + w * w).
Proof. unfold lenR, dotR; cbn. f_equal; ring. Qed.

Lemma compute_plane_eq (a b c : V3) :
  let n := cross3 (sub3 b c) (sub3 a b) in
  let L := sqrt (dot3 n n + 1) in
  0 < L /\ len3R n < L /\
  vec_compute_plane (v3 a) (v3 b) (v3 c) =
  Ok (v3 (scale3 (/ L) n) ++ [- dot3 (scale3 (/ L) n) a]).
Proof.
  intros n L. pose proof (dot3_nonneg n) as Hn.
  assert (HL : 0 < L) by (apply sqrt_lt_R0; lra).
  split; [exact HL|]. split; [apply sqrt_lt_1; lra|].
  unfold vec_compute_plane. rewrite !vec_sub_v3. cbn [bind]. rewrite vec_cross_v3. cbn [bind]. fold n.
  assert (Eh : vec_to_hom 4 (vec_default 4) (v3 n) = Ok (v3 n ++ [1])).
  { destruct n as [[n0 n1] n2]. reflexivity. }
  rewrite Eh. cbn [bind].
  destruct n as [[n0 n1] n2]. cbn [v3 app].
  pose proof (repV_4 n0 n1 n2 1) as H4. cbn [sone RScalar] in H4.
  destruct (vec_normalize_R 4 [n0; n1; n2; 1] _ H4) as ([len r] & Er & -> & Hr).
  { rewrite fn4_len. cbn in HL, L. replace (n0 * n0 + n1 * n1 + n2 * n2 + 1 * 1) with (n0 * n0 + n1 * n1 + n2 * n2 + 1) by ring.
    fold L. lra. }
  rewrite Er. cbn [bind]. rewrite fn4_len in Hr.
  replace (n0 * n0 + n1 * n1 + n2 * n2 + 1 * 1) with (dot3 (n0, n1, n2) (n0, n1, n2) + 1) in Hr by (cbn; ring).
  fold L in Hr.
  pose proof (repV_len _ _ _ Hr) as Hlen. destruct (len4 r Hlen) as (r0 & r1 & r2 & r3 & ->).
  destruct Hr as [_ Hr].
  pose proof (Hr 0%nat ltac:(lia)) as R0; pose proof (Hr 1%nat ltac:(lia)) as R1;
  pose proof (Hr 2%nat ltac:(lia)) as R2. cbn in R0, R1, R2.
  injection R0 as ->. injection R1 as ->. injection R2 as ->.
  destruct a as [[a0 a1] a2]. cbn -[L]. f_equal. unfold Rdiv.
  f_equal; [ring|]. f_equal; [ring|]. f_equal; [ring|]. f_equal; ring.
Qed.

Lemma compute_plane_value (a b c : V3) :
  exists x y z d, vec_compute_plane (v3 a) (v3 b) (v3 c) = Ok [x; y; z; d] /\
  len3R (x, y, z) = len3R (cross3 (sub3 b c) (sub3 a b)) / sqrt (dot3 (cross3 (sub3 b c) (sub3 a b)) (cross3 (sub3 b c) (sub3 a b)) + 1) /\
  len3R (cross3 (sub3 b c) (sub3 a b)) / sqrt (dot3 (cross3 (sub3 b c) (sub3 a b)) (cross3 (sub3 b c) (sub3 a b)) + 1) < 1 /\ True.
Proof.
  destruct (compute_plane_eq a b c) as (HL & HN & E).
  set (n := cross3 (sub3 b c) (sub3 a b)) in *. set (L := sqrt (dot3 n n + 1)) in *.
  exists (/ L * fst (fst n)), (/ L * snd (fst n)), (/ L * snd n), (- dot3 (scale3 (/ L) n) a).
  split; [|split; [|split]].
  - rewrite E. destruct n as [[n0 n1] n2]. reflexivity.
  - replace (/ L * fst (fst n), / L * snd (fst n), / L * snd n) with (scale3 (/ L) n)
      by (destruct n as [[n0 n1] n2]; reflexivity).
    rewrite len3_scale, Rabs_pos_eq by (left; apply Rinv_0_lt_compat; exact HL). unfold Rdiv; ring.
  - apply (Rmult_lt_reg_r L); [exact HL|]. unfold Rdiv. rewrite Rmult_assoc, Rinv_l by lra. lra.
  - exact I.
Qed.

Lemma vec_dist_plane_v3 n d p : vec_dist_plane (v3 n ++ [d]) (v3 p) = Ok (dot3 n p + d).
Proof.
  destruct n as [[n0 n1] n2], p as [[x y] z]. cbn. f_equal. ring.
Qed.

Lemma compute_plane_partial (a b c : V3) :
  exists (n : V3) (d k : R),
  vec_compute_plane (v3 a) (v3 b) (v3 c) = Ok (v3 n ++ [d]) /\
  vec_dist_plane (v3 n ++ [d]) (v3 a) = Ok 0 /\
  vec_dist_plane (v3 n ++ [d]) (v3 b) = Ok 0 /\
  vec_dist_plane (v3 n ++ [d]) (v3 c) = Ok 0 /\
  0 < k /\ n = scale3 k (cross3 (sub3 b c) (sub3 a b)).
Proof.
  destruct (compute_plane_eq a b c) as (HL & HN & E).
  set (n := cross3 (sub3 b c) (sub3 a b)) in *. set (L := sqrt (dot3 n n + 1)) in *.
  exists (scale3 (/ L) n), (- dot3 (scale3 (/ L) n) a), (/ L).
  split; [exact E|]. rewrite !vec_dist_plane_v3. generalize (/ L) (Rinv_0_lt_compat L HL); intros k Hk.
  subst n. destruct a as [[a0 a1] a2], b as [[b0 b1] b2], c as [[c0 c1] c2]. cbn.
  repeat split; try (f_equal; ring). exact Hk.
Qed.

Lemma vec_mul_s_n3 n d p : vec_project_plane (v3 n ++ [d]) (v3 p) = Ok (v3 (sub3 p (scale3 (dot3 n p + d) n))).
Proof.
  unfold vec_project_plane. rewrite vec_dist_plane_v3.
  assert (E : vec_sub_vector 3 (v3 n ++ [d]) 0 = Ok (v3 n)) by (destruct n as [[n0 n1] n2]; reflexivity).
  rewrite E. cbn [bind]. rewrite vec_mul_s_v3. cbn [bind]. rewrite vec_sub_v3. reflexivity.
Qed.

Lemma plane_correct (n : V3) (d : R) (p : V3) :
  len3R n = 1 ->
  exists (s : R) (q : V3),
  vec_dist_plane (v3 n ++ [d]) (v3 p) = Ok s /\
  vec_project_plane (v3 n ++ [d]) (v3 p) = Ok (v3 q) /\
  on_plane n d q /\
  p = add3 q (scale3 s n) /\
  dist3 p q = Rabs s /\
  (forall x, on_plane n d x -> Rabs s <= dist3 p x) /\
  (forall x, on_plane n d x -> dist3 p x = Rabs s -> x = q).
Proof.
  intros Hn. pose proof (proj1 (len3_one_iff n) Hn) as Hn2.
  set (s := dot3 n p + d). set (q := sub3 p (scale3 s n)).
  assert (Eq : p = add3 q (scale3 s n)).
  { unfold q. destruct p as [[x y] z], n as [[n0 n1] n2]. cbn. apply V3_eq; ring. }
  assert (Hq : on_plane n d q).
  { unfold on_plane, q, s. destruct p as [[x y] z], n as [[n0 n1] n2]. cbn in *.
    assert (E1 : n0 * n0 = 1 - n1 * n1 - n2 * n2) by lra. ring [E1]. }
  assert (D : forall x, on_plane n d x -> dot3 n (sub3 p x) = s).
  { intros [[x0 x1] x2] Hx. unfold on_plane, s in *. destruct p as [[x y] z], n as [[n0 n1] n2]. cbn in *. lra. }
  assert (DQ : dist3 p q = Rabs s).
  { unfold dist3, q. replace (sub3 p (sub3 p (scale3 s n))) with (scale3 s n)
      by (destruct p as [[x y] z], n as [[n0 n1] n2]; cbn; apply V3_eq; ring).
    rewrite len3_scale, Hn. ring. }
  exists s, q. split; [apply vec_dist_plane_v3|]. split; [apply vec_mul_s_n3|].
  split; [exact Hq|]. split; [exact Eq|]. split; [exact DQ|]. split.
  - intros x Hx. rewrite <- (D x Hx). unfold dist3.
    pose proof (len3_cs n (sub3 p x)) as K. rewrite Hn in K. lra.
  - intros x Hx E.
    (* |p-x|^2 = s^2 forces p - x = s n *)
    assert (Z : dot3 (sub3 (sub3 p x) (scale3 s n)) (sub3 (sub3 p x) (scale3 s n)) = 0).
    { pose proof (D x Hx) as Ds. pose proof (len3_sq (sub3 p x)) as L2. unfold dist3 in E. rewrite E in L2.
      assert (A2 : Rabs s * Rabs s = s * s) by (rewrite <- Rabs_mult; apply Rabs_pos_eq; apply (Rle_0_sqr s)).
      rewrite A2 in L2.
      assert (X : dot3 (sub3 (sub3 p x) (scale3 s n)) (sub3 (sub3 p x) (scale3 s n)) =
                  dot3 (sub3 p x) (sub3 p x) - 2 * s * dot3 n (sub3 p x) + s * s * dot3 n n)
        by (destruct p as [[p0 p1] p2], x as [[x0 x1] x2], n as [[n0 n1] n2]; cbn; ring).
      rewrite X, Ds, Hn2, <- L2. ring. }
    assert (L0 : len3R (sub3 (sub3 p x) (scale3 s n)) = 0) by (unfold len3R; rewrite Z; apply sqrt_0).
    apply len3_zero in L0. unfold q, zero3 in *.
    destruct p as [[p0 p1] p2], x as [[x0 x1] x2], n as [[n0 n1] n2]. cbn in *.
    injection L0; intros. apply V3_eq; lra.
Qed.

Lemma add3_sub3 a b : sub3 (add3 a b) a = b.
Proof. destruct a as [[a0 a1] a2], b as [[b0 b1] b2]; cbn. apply V3_eq; ring. Qed.

Lemma len3_triangle a b : len3R (add3 a b) <= len3R a + len3R b.
Proof.
  rewrite <- !lenR_3.
  rewrite (lenR_ext 3 (fn3 (add3 a b)) (fun i => fn3 a i + fn3 b i)).
  - apply lenR_triangle.
  - destruct a as [[a0 a1] a2], b as [[b0 b1] b2]. intros [|[|[|i]]] Hi; try lia; reflexivity.
Qed.

Lemma sphere_correct (c : V3) (r : R) (p : V3) :
  vec_dist_sphere (v3 c ++ [r]) (v3 p) = Ok (dist3 p c - r) /\
  (p = c -> vec_project_sphere (v3 c ++ [r]) (v3 p) = Ok (v3 c)) /\
  (p <> c ->
   exists q k, vec_project_sphere (v3 c ++ [r]) (v3 p) = Ok (v3 q) /\
   dist3 q c = Rabs r /\
   sub3 q c = scale3 k (sub3 p c) /\ (0 <= r -> 0 <= k) /\
   (0 <= r ->
      dist3 p q = Rabs (dist3 p c - r) /\
      forall x, dist3 x c = r -> dist3 p q <= dist3 p x)).
Proof.
  assert (E : vec_sub_vector 3 (v3 c ++ [r]) 0 = Ok (v3 c)) by (destruct c as [[n0 n1] n2]; reflexivity).
  assert (Er : rd (v3 c ++ [r]) 3 = Ok r) by (destruct c as [[n0 n1] n2]; reflexivity).
  split; [|split].
  - unfold vec_dist_sphere. rewrite E. cbn [bind]. rewrite vec_sub_v3. cbn [bind].
    rewrite vec_length_v3. cbn [bind]. rewrite Er. reflexivity.
  - intros ->. unfold vec_project_sphere. rewrite E. cbn [bind]. rewrite vec_sub_assign_v3. cbn [bind].
    rewrite vec_normalize_v3_zero.
    + cbn [bind]. rewrite Er. cbn [bind]. rewrite vec_mul_assign_s_v3. cbn [bind]. rewrite vec_add_v3.
      do 2 f_equal. destruct c as [[n0 n1] n2]. cbn. apply V3_eq; ring.
    + apply len3_zero. destruct c as [[n0 n1] n2]. cbn. apply V3_eq; ring.
  - intros Hne. set (u := sub3 p c). set (L := len3R u).
    assert (HL : L <> 0).
    { intros H. apply len3_zero in H. apply Hne. unfold u, zero3 in H.
      destruct c as [[c0 c1] c2], p as [[p0 p1] p2]; cbn in H. injection H; intros. apply V3_eq; lra. }
    assert (HL' : 0 < L) by (pose proof (len3_nonneg u); fold L in H; lra).
    exists (add3 c (scale3 r (scale3 (/ L) u))), (r * / L).
    set (q := add3 c (scale3 r (scale3 (/ L) u))).
    assert (EQ : sub3 q c = scale3 (r * / L) u) by (unfold q; rewrite add3_sub3, scale3_scale; reflexivity).
    split.
    { unfold vec_project_sphere. rewrite E. cbn [bind]. rewrite vec_sub_assign_v3. cbn [bind].
      fold u. rewrite vec_normalize_v3 by exact HL. cbn [bind]. rewrite Er. cbn [bind].
      rewrite vec_mul_assign_s_v3. cbn [bind]. rewrite vec_add_v3. reflexivity. }
    assert (HLi : 0 < / L) by (apply Rinv_0_lt_compat; exact HL').
    split.
    { unfold dist3. rewrite EQ, len3_scale, Rabs_mult, (Rabs_pos_eq (/ L)) by lra. fold L. field. exact HL. }
    split; [exact EQ|]. split; [intros Hr; apply Rmult_le_pos; lra|].
    intros Hr.
    assert (DQ : dist3 p q = Rabs (L - r)).
    { unfold dist3. replace (sub3 p q) with (scale3 ((L - r) * / L) u).
      - rewrite len3_scale, Rabs_mult, (Rabs_pos_eq (/ L)) by lra. fold L. field. exact HL.
      - unfold q. replace ((L - r) * / L) with (1 - r * / L) by (field; exact HL).
        subst u. destruct c as [[c0 c1] c2], p as [[p0 p1] p2]; cbn. apply V3_eq; ring. }
    split; [exact DQ|]. intros x Hx. rewrite DQ.
    assert (T1 : L <= dist3 p x + r).
    { rewrite <- Hx. unfold L, u, dist3. 
      replace (sub3 p c) with (add3 (sub3 p x) (sub3 x c)); [apply len3_triangle|].
      destruct c as [[c0 c1] c2], p as [[p0 p1] p2], x as [[x0 x1] x2]; cbn. apply V3_eq; ring. }
    assert (T2 : r <= dist3 p x + L).
    { rewrite <- Hx at 1. unfold L, u, dist3.
      replace (len3R (sub3 p x)) with (len3R (sub3 x p)).
      - replace (sub3 x c) with (add3 (sub3 x p) (sub3 p c)); [apply len3_triangle|].
        destruct c as [[c0 c1] c2], p as [[p0 p1] p2], x as [[x0 x1] x2]; cbn. apply V3_eq; ring.
      - unfold len3R. f_equal. destruct p as [[p0 p1] p2], x as [[x0 x1] x2]; cbn. ring. }
    unfold Rabs; destruct (Rcase_abs (L - r)); lra.
Qed.
End Geo.
