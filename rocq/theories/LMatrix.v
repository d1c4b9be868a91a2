(** Lemmas about the Matrix model that hold for every element type. *)
From Verif Require Export LVector MMatrix.

Lemma upd_upd {A} : forall (l : list A) i x y, upd (upd l i x) i y = upd l i y.
Proof. induction l as [|a l IH]; intros [|i] x y; cbn; auto. f_equal; apply IH. Qed.

Lemma repM_repV_cell {A} M N (l : list A) f :
  repM M N l f -> repV (M * N) l (fun k => f (k mod M) (k / M)).
Proof.
  intros [Hl Hf]. split; [exact Hl|]. intros k Hk. destruct (cell_surj M N k Hk) as (i & j & Hi & Hj & ->).
  rewrite Hf by assumption. f_equal; f_equal.
  - rewrite Nat.add_comm, Nat.mod_add by lia. symmetry; apply Nat.mod_small; exact Hi.
  - rewrite Nat.div_add_l by lia. rewrite Nat.div_small by exact Hi; lia.
Qed.

Lemma cell_mod M i j : i < M -> (j * M + i) mod M = i.
Proof. intros Hi. rewrite Nat.add_comm, Nat.mod_add by lia. apply Nat.mod_small; exact Hi. Qed.
Lemma cell_div M i j : i < M -> (j * M + i) / M = j.
Proof. intros Hi. rewrite Nat.div_add_l by lia. rewrite Nat.div_small by exact Hi; lia. Qed.

Section M.
Context {cfg : Cfg} {T : Type} {ST : Scalar T}.
Implicit Types m : list T.

Lemma mat_at_ok M N m f r c : repM M N m f -> r < M -> c < N -> mat_at M N m r c = Ok (f r c).
Proof.
  intros Hm Hr Hc. unfold mat_at. destruct (Nat.leb_spec M r); [lia|]. destruct (Nat.leb_spec N c); [lia|].
  cbn [orb andb]. eapply repM_rd; eassumption.
Qed.

Lemma mat_put_ok M N m r c x : r < M -> c < N -> mat_put M N m r c x = wr m (c * M + r) x.
Proof.
  intros Hr Hc. unfold mat_put. destruct (Nat.leb_spec M r); [lia|]. destruct (Nat.leb_spec N c); [lia|].
  reflexivity.
Qed.

Lemma mat_put_rep M N m f r c x : repM M N m f -> r < M -> c < N ->
  returns (mat_put M N m r c x)
    (fun m' => repM M N m' (fun i j => if (i =? r) && (j =? c) then x else f i j)).
Proof.
  intros Hm Hr Hc. rewrite mat_put_ok by assumption.
  destruct (repM_wr M N m f r c x Hm Hr Hc) as [E HR]. rewrite E. apply returns_ok; exact HR.
Qed.

Lemma mat_throw M N m r c x : M <= r \/ N <= c -> safe = true ->
  mat_at M N m r c = Throw /\ mat_put M N m r c x = Throw.
Proof.
  intros H Hs. unfold mat_at, mat_put. rewrite Hs.
  destruct (Nat.leb_spec M r), (Nat.leb_spec N c); cbn; auto; lia.
Qed.

Lemma mat_fill_rc_spec M N g m f h :
  repM M N m f ->
  (forall r c m', r < M -> c < N ->
     repM M N m' (fun i j => if (i <? r) || (i =? r) && (j <? c) then h i j else f i j) ->
     g r c m' = Ok (h r c)) ->
  returns (mat_fill_rc M N g m) (fun x => repM M N x h).
Proof.
  intros Hm Hg. unfold mat_fill_rc. eapply fill2_rc_all; [exact Hm|].
  intros r c m' Hr Hc Hm'. rewrite (Hg r c m' Hr Hc Hm'). cbn [bind]. apply mat_put_ok; assumption.
Qed.

Lemma visited_cur (r c : nat) : (r <? r) || (r =? r) && (c <? c) = false.
Proof. rewrite !Nat.ltb_irrefl, andb_false_r. reflexivity. Qed.

(** Flat loops that treat the elements one by one. *)
Lemma iter_fill M N m f h (body : nat -> list T -> res (list T)) :
  repM M N m f ->
  (forall r c m', r < M -> c < N -> length m' = M * N -> nth_error m' (c * M + r) = Some (f r c) ->
     body (c * M + r) m' = wr m' (c * M + r) (h r c)) ->
  returns (for_ 0 (M * N) body m) (fun x => repM M N x h).
Proof.
  intros Hm Hb.
  eapply returns_impl; [apply (fill1_all (M * N) m _ (fun k => h (k mod M) (k / M)) body
    (repM_repV_cell _ _ _ _ Hm))|].
  - intros k m' Hk Hm'. destruct (cell_surj M N k Hk) as (r & c & Hr & Hc & ->).
    rewrite cell_mod, cell_div by exact Hr. apply Hb; auto; [apply Hm'|].
    destruct Hm' as [_ Hm']. rewrite Hm' by exact Hk.
    rewrite Nat.ltb_irrefl, cell_mod, cell_div by exact Hr. reflexivity.
  - intros x [Hx1 Hx2]. split; [exact Hx1|]. intros i j Hi Hj.
    rewrite Hx2 by (apply cell_lt; assumption). rewrite cell_mod, cell_div by exact Hi. reflexivity.
Qed.

Lemma mat_fill_spec M N m f x : repM M N m f -> returns (mat_fill M N m x) (fun r => repM M N r (fun _ _ => x)).
Proof. intros Hm. eapply mat_fill_rc_spec; [exact Hm|]. reflexivity. Qed.

Lemma mat_zero_spec M N m f : repM M N m f -> returns (mat_zero M N m) (fun r => repM M N r (fun _ _ => szero)).
Proof. apply mat_fill_spec. Qed.

Lemma mat_assign_value_spec M N m f x : repM M N m f ->
  returns (mat_assign_value M N m x) (fun r => repM M N r (fun _ _ => x)).
Proof. intros Hm. eapply iter_fill; [exact Hm|]. reflexivity. Qed.

Lemma put_diag M N m f (d : nat -> T) k : repM M N m f -> k <= M -> k <= N ->
  returns (for_ 0 k (fun i m => mat_put M N m i i (d i)) m)
    (fun r => repM M N r (fun i j => if (i =? j) && (i <? k) then d i else f i j)).
Proof.
  intros Hm HM HN.
  apply (for_inv (fun k r => repM M N r (fun i j => if (i =? j) && (i <? k) then d i else f i j))); [lia| |].
  - eapply repM_ext; [exact Hm|]. intros i j _ _; cbv beta. rewrite (proj2 (Nat.ltb_ge i 0)) by lia.
    rewrite andb_false_r; reflexivity.
  - intros i r Hi Hr. eapply returns_impl; [apply (mat_put_rep M N r _ i i (d i) Hr); lia|].
    intros x Hx. eapply repM_ext; [exact Hx|]. intros a b Ha Hb; cbv beta.
    destruct (Nat.eqb_spec a i), (Nat.eqb_spec b i), (Nat.eqb_spec a b), (Nat.ltb_spec a i), (Nat.ltb_spec a (S i));
      subst; cbn; auto; lia.
Qed.

Definition idf (i j : nat) : T := if i =? j then sone else szero.

Lemma mat_default_spec M N : returns (mat_default M N)
  (fun r => repM M N r (fun i j => if (M =? N) then idf i j else szero)).
Proof.
  unfold mat_default. pose proof (repM_repeat M N (szero : T)) as H0.
  destruct (Nat.eqb_spec M N) as [<-|Hne].
  - eapply returns_impl; [apply (put_diag M M _ _ (fun _ => sone) M H0); lia|].
    intros x Hx. eapply repM_ext; [exact Hx|]. intros i j Hi Hj; cbv beta. unfold idf.
    destruct (Nat.ltb_spec i M); [|lia]. rewrite andb_true_r; reflexivity.
  - apply returns_ok; exact H0.
Qed.

Lemma mat_default_any M N : exists d, mat_default M N = Ok d /\ length d = M * N.
Proof. destruct (mat_default_spec M N) as (d & E & H). exists d; split; [exact E|apply H]. Qed.

(** Any array of the right length has cells. *)
Lemma mat_rep M N m : length m = M * N -> exists f, repM M N m f.
Proof. intros H. eexists. apply (repM_nth M N m szero H). Qed.

Lemma mat_identity_spec M m f : repM M M m f ->
  returns (mat_identity M M m) (fun r => repM M M r idf).
Proof.
  intros Hm. unfold mat_identity. eapply returns_bind; [apply (mat_assign_value_spec M M m f szero Hm)|].
  intros r Hr. eapply returns_impl; [apply (put_diag M M _ _ (fun _ => sone) M Hr); lia|].
  intros x Hx. eapply repM_ext; [exact Hx|]. intros i j Hi Hj; cbv beta. unfold idf.
  destruct (Nat.ltb_spec i M); [|lia]. rewrite andb_true_r; reflexivity.
Qed.

Lemma mat_assign_spec M N m o f fo : repM M N m f -> repM M N o fo ->
  mat_assign M N m (Val o) = Ok o /\ mat_assign M N m Self = Ok m.
Proof.
  intros Hm Ho.
  assert (K : forall s fs, repM M N s fs -> copy_n (M * N) s 0 m 0 = Ok s).
  { intros s fs Hs.
    destruct (copy_n_spec (M * N) s 0 m 0 _ _ _ _ (repM_repV_cell _ _ _ _ Hs) (repM_repV_cell _ _ _ _ Hm))
      as (x & E & Hx); [lia|lia|]. rewrite E. f_equal.
    eapply repV_inj; [exact Hx|]. eapply repV_ext; [exact (repM_repV_cell _ _ _ _ Hs)|].
    intros k Hk; cbv beta. rewrite Nat.sub_0_r. cbn [Nat.add Nat.leb andb].
    destruct (Nat.ltb_spec k (M * N)); auto; lia. }
  split; cbn [mat_assign argl]; [exact (K o fo Ho)|exact (K m f Hm)].
Qed.

Lemma mat_assign_resize_spec {U} (cast : U -> T) M N P Q m (src : list U) f fs :
  repM M N m f -> repM P Q src fs ->
  returns (mat_assign_resize cast M N P Q m src)
    (fun r => repM M N r (fun i j => if (i <? P) && (j <? Q) then cast (fs i j) else szero)).
Proof.
  intros Hm Hs. unfold mat_assign_resize.
  set (minL := if P <? M then P else M). set (minC := if Q <? N then Q else N).
  assert (HL : minL <= M /\ minL <= P) by (subst minL; destruct (Nat.ltb_spec P M); lia).
  assert (HC : minC <= N /\ minC <= Q) by (subst minC; destruct (Nat.ltb_spec Q N); lia).
  assert (K : exists f0 m0, (if (minL <? M) || (minC <? N) then mat_zero M N m else Ok m) = Ok m0 /\ repM M N m0 f0 /\
     ((minL < M \/ minC < N) -> forall i j, i < M -> j < N -> f0 i j = szero)).
  { destruct (Nat.ltb_spec minL M); [|destruct (Nat.ltb_spec minC N)]; cbn [orb];
    try (destruct (mat_zero_spec M N m f Hm) as (m0 & E & HZ); exists (fun _ _ => szero), m0; split; [exact E|auto]).
    exists f, m. split; [reflexivity|]. split; [exact Hm|]. intros HX; exfalso; lia. }
  destruct K as (f0 & m0 & -> & Hm0 & Hz). cbn [bind].
  eapply returns_impl; [eapply (fill2_rc M N m0 f0 (fun i j => cast (fs i j)) 0 minL 0 minC); try lia; [exact Hm0|]|].
  - intros i j l' Hi Hj Hl'. cbv beta. destruct (Nat.leb_spec P i); [lia|]. destruct (Nat.leb_spec Q j); [lia|].
    cbn [orb andb]. rewrite (repM_rd P Q src fs) by (auto; lia). cbn [bind]. apply mat_put_ok; lia.
  - intros r Hr. eapply repM_ext; [exact Hr|]. intros i j Hi Hj; cbv beta. cbn [Nat.leb andb].
    unfold minL, minC in *.
    destruct (Nat.ltb_spec P M), (Nat.ltb_spec Q N);
      repeat match goal with |- context[?a <? ?b] => destruct (Nat.ltb_spec a b) end; cbn [andb]; auto; try lia;
      apply Hz; auto; lia.
Qed.

Lemma mat_assign_2d_spec M N m f a fa : repM M N m f -> repV (M * N) a fa ->
  returns (mat_assign_2d M N m a) (fun r => repM M N r (fun i j => fa (i * N + j))).
Proof.
  intros Hm Ha. eapply mat_fill_rc_spec; [exact Hm|]. intros r c m' Hr Hc _.
  apply (repV_rd (M * N)); [exact Ha|]. pose proof (cell_lt N M c r Hc Hr). lia.
Qed.

Lemma mat_set_spec M N m f src fs n : repM M N m f -> repV n src fs ->
  returns (mat_set M N m src true)
    (fun r => repM M N r (fun i j => if i * N + j <? n then fs (i * N + j) else f i j)).
Proof.
  intros Hm Hs. unfold mat_set. rewrite (repV_len _ _ _ Hs).
  set (P := fun (x : list T) => repM M N x (fun i j => if i * N + j <? n then fs (i * N + j) else f i j)).
  eapply returns_bind.
  - apply (forr_inv (fun r x => repM M N x (fun i j => if (i <? r) && (i * N + j <? n) then fs (i * N + j) else f i j)) P).
    + lia.
    + eapply repM_ext; [exact Hm|]. intros; cbv beta. rewrite (proj2 (Nat.ltb_ge i 0)) by lia. reflexivity.
    + intros r x Hr Hx.
      eapply returns_impl; [apply (forr_inv (fun c x => repM M N x (fun i j =>
         if ((i <? r) || (i =? r) && (j <? c)) && (i * N + j <? n) then fs (i * N + j) else f i j)) P); [lia| |]|].
      * eapply repM_ext; [exact Hx|]. intros i j Hi Hj; cbv beta. rewrite (proj2 (Nat.ltb_ge j 0)) by lia.
        rewrite andb_false_r, orb_false_r. reflexivity.
      * intros c y Hc Hy. destruct (Nat.leb_spec n (r * N + c)) as [Hn|Hn].
        -- apply returns_ok. unfold P. eapply repM_ext; [exact Hy|]. intros i j Hi Hj; cbv beta.
           destruct (Nat.ltb_spec (i * N + j) n); [|rewrite andb_false_r; auto].
           assert (i <= r) by nia.
           destruct (Nat.ltb_spec i r), (Nat.eqb_spec i r), (Nat.ltb_spec j c); cbn; auto; subst; lia.
        -- rewrite (repV_rd n src fs) by auto. cbn [bind].
           eapply returns_bind; [apply (mat_put_rep M N y _ r c (fs (r * N + c)) Hy); lia|].
           intros z Hz. apply returns_ok. eapply repM_ext; [exact Hz|]. intros i j Hi Hj; cbv beta.
           destruct (Nat.eqb_spec i r) as [->|Hne]; cbn [andb].
           ++ destruct (Nat.eqb_spec j c) as [->|Hne].
              ** destruct (Nat.ltb_spec r r), (Nat.ltb_spec c (S c)), (Nat.ltb_spec (r * N + c) n); cbn; auto; lia.
              ** destruct (Nat.ltb_spec r r), (Nat.ltb_spec j (S c)), (Nat.ltb_spec j c); cbn; auto; lia.
           ++ reflexivity.
      * intros [y|y] Hy; [|exact Hy]. eapply repM_ext; [exact Hy|]. intros i j Hi Hj; cbv beta.
        destruct (Nat.ltb_spec i r), (Nat.eqb_spec i r), (Nat.ltb_spec j N), (Nat.ltb_spec i (S r)); cbn; auto; lia.
  - intros [y|y] Hy; apply returns_ok; [|exact Hy]. eapply repM_ext; [exact Hy|]. intros i j Hi Hj; cbv beta.
    destruct (Nat.ltb_spec i M); [reflexivity|lia].
Qed.

Lemma mat_cast_from_spec {U} (cast : U -> T) M N m (src : list U) f fs :
  repM M N m f -> repM M N src fs ->
  returns (mat_cast_from cast M N m src) (fun r => repM M N r (fun i j => cast (fs i j))).
Proof.
  intros Hm Hs. eapply iter_fill; [exact Hm|]. intros r c m' Hr Hc _ _. cbv beta.
  rewrite (repM_rd M N src fs) by auto. reflexivity.
Qed.

(** Element-wise operators. *)
Lemma mat_mul_piecewise_spec M N m o f fo : repM M N m f ->
  match o with Val l => repM M N l fo | Self => forall i j, i < M -> j < N -> fo i j = f i j end ->
  returns (mat_mul_piecewise M N m o) (fun r => repM M N r (fun i j => smul (f i j) (fo i j))).
Proof.
  intros Hm Ho. eapply mat_fill_rc_spec; [exact Hm|]. intros r c m' Hr Hc Hm'.
  rewrite (mat_at_ok M N m' _ r c Hm') by auto. cbn [bind]. cbv beta. rewrite visited_cur.
  destruct o as [l|]; cbn [argl].
  - rewrite (mat_at_ok M N l fo) by auto. reflexivity.
  - rewrite (mat_at_ok M N m' _ r c Hm') by auto. cbn [bind]. rewrite visited_cur, Ho by auto. reflexivity.
Qed.

Lemma mat_map_s_spec M N op m f h : repM M N m f ->
  (forall i j, i < M -> j < N -> op (f i j) = Ok (h i j)) ->
  returns (mat_map_s M N op m) (fun r => repM M N r h).
Proof.
  intros Hm Hop. unfold mat_map_s. eapply returns_bind; [apply mat_default_spec|]. intros d Hd.
  eapply mat_fill_rc_spec; [exact Hd|]. intros r c m' Hr Hc Hm'.
  rewrite (mat_at_ok M N m f) by auto. apply Hop; assumption.
Qed.

Lemma mat_map_assign_s_spec M N op m f h : repM M N m f ->
  (forall i j, i < M -> j < N -> op (f i j) = Ok (h i j)) ->
  returns (mat_map_assign_s M N op m) (fun r => repM M N r h).
Proof.
  intros Hm Hop. eapply mat_fill_rc_spec; [exact Hm|]. intros r c m' Hr Hc Hm'.
  rewrite (mat_at_ok M N m' _ r c Hm') by auto. cbn [bind]. rewrite visited_cur. apply Hop; assumption.
Qed.

Lemma mat_iter_zip_spec M N op m o f fo : repM M N m f ->
  match o with Val l => repM M N l fo | Self => forall i j, i < M -> j < N -> fo i j = f i j end ->
  returns (mat_iter_zip M N op m o) (fun r => repM M N r (fun i j => op (f i j) (fo i j))).
Proof.
  intros Hm Ho. eapply iter_fill; [exact Hm|]. intros r c m' Hr Hc Hl Hm'. cbv beta.
  rewrite (rd_ok m' _ _ Hm'). cbn [bind]. destruct o as [l|]; cbn [argl].
  - rewrite (repM_rd M N l fo) by auto. reflexivity.
  - rewrite (rd_ok m' _ _ Hm'). cbn [bind]. rewrite Ho by auto. reflexivity.
Qed.

Lemma mat_iter_map_spec M N op m f : repM M N m f ->
  returns (mat_iter_map M N op m) (fun r => repM M N r (fun i j => op (f i j))).
Proof.
  intros Hm. eapply iter_fill; [exact Hm|]. intros r c m' Hr Hc Hl Hm'. cbv beta.
  rewrite (rd_ok m' _ _ Hm'). reflexivity.
Qed.

(** Products. *)
Lemma acc_cell M N m (g : nat -> T) n r c (body : nat -> list T -> res (list T)) acc0 :
  length m = M * N -> r < M -> c < N ->
  (forall p m', p < n -> length m' = M * N ->
     body p m' = (x <- mat_at M N m' r c ;; mat_put M N m' r c (sadd x (g p)))) ->
  for_ 0 n body (upd m (c * M + r) acc0) =
  Ok (upd m (c * M + r) (Nat.recursion acc0 (fun p a => sadd a (g p)) n)).
Proof.
  intros Hm Hr Hc Hb. pose proof (cell_lt M N r c Hr Hc) as Hk.
  destruct (for_inv (fun p x => x = upd m (c * M + r) (Nat.recursion acc0 (fun p a => sadd a (g p)) p))
    0 n body (upd m (c * M + r) acc0)) as (x & E & ->); auto; try lia.
  intros p x Hp ->. rewrite Hb by (try lia; rewrite length_upd; exact Hm).
  unfold mat_at, mat_put. destruct (Nat.leb_spec M r); [lia|]. destruct (Nat.leb_spec N c); [lia|]. cbn [orb andb].
  unfold rd. rewrite nth_error_upd_same by lia. cbn [bind].
  rewrite wr_ok by (rewrite length_upd; lia). rewrite upd_upd. apply returns_ok. reflexivity.
Qed.

Lemma recursion_ssum (g : nat -> T) n :
  Nat.recursion szero (fun p a => sadd a (g p)) n = ssum n g.
Proof. induction n as [|n IH]; cbn; [reflexivity|]. rewrite <- IH. reflexivity. Qed.

Lemma mat_multiply_spec M P N m l r f fl fr :
  repM M N m f -> repM M P l fl -> repM P N r fr ->
  returns (mat_multiply M P N m (Val l) (Val r))
    (fun x => repM M N x (fun i j => ssum P (fun p => smul (fl i p) (fr p j)))).
Proof.
  intros Hm Hl Hr. unfold mat_multiply. eapply fill2_rc_all; [exact Hm|].
  intros i j m' Hi Hj Hm'. cbv beta. pose proof (repM_len _ _ _ _ Hm') as Hlen.
  pose proof (cell_lt M N i j Hi Hj) as Hk.
  rewrite mat_put_ok by auto. rewrite !wr_ok by lia. cbn [bind].
  rewrite (acc_cell M N m' (fun p => smul (fl i p) (fr p j)) P i j) by (auto; intros p m'' Hp Hm'';
    cbn [argl]; rewrite (mat_at_ok M P l fl), (mat_at_ok P N r fr) by auto; reflexivity).
  rewrite recursion_ssum. reflexivity.
Qed.

Lemma mat_mul_spec M N P m o f fo : repM M N m f -> repM N P o fo ->
  returns (mat_mul M N P m o) (fun x => repM M P x (fun i j => ssum N (fun p => smul (f i p) (fo p j)))).
Proof.
  intros Hm Ho. unfold mat_mul. eapply returns_bind; [apply mat_default_spec|]. intros d Hd.
  eapply mat_multiply_spec; [eassumption || exact Hd|eassumption|eassumption].
Qed.

Lemma mat_mul_assign_spec M m o f fo : repM M M m f -> repM M M o fo ->
  returns (mat_mul_assign M m (Val o)) (fun x => repM M M x (fun i j => ssum M (fun p => smul (f i p) (fo p j)))).
Proof. intros Hm Ho. eapply mat_multiply_spec; [eassumption || exact Hd|eassumption|eassumption]. Qed.

Lemma mat_mul_vec_spec M N m v f g : repM M N m f -> repV N v g ->
  returns (mat_mul_vec M N m v) (fun x => repV M x (fun i => ssum N (fun j => smul (f i j) (g j)))).
Proof.
  intros Hm Hv. unfold mat_mul_vec. eapply fill1_all; [apply vec_default_rep|]. intros i l Hi Hl. cbv beta.
  rewrite (for_sum N (fun j => smul (f i j) (g j))).
  - cbn [bind]. apply vset_ok; exact Hi.
  - intros j a Hj. rewrite (mat_at_ok M N m f), (vat_ok N v g) by auto. reflexivity.
Qed.

Lemma mat_transpose_to_spec M N m t f ft : repM M N m f -> repM N M t ft ->
  returns (mat_transpose_to M N m t) (fun x => repM N M x (fun i j => f j i)).
Proof.
  intros Hm Ht. unfold mat_transpose_to.
  apply (fill2_cr_all N M t ft (fun i j => f j i)
    (fun r c t => x <- mat_at M N m r c ;; mat_put N M t c r x)); [exact Ht|].
  intros i j l' Hi Hj Hl'. cbv beta. rewrite (mat_at_ok M N m f) by auto. cbn [bind]. apply mat_put_ok; auto.
Qed.

Lemma mat_transpose_spec M N m f : repM M N m f ->
  returns (mat_transpose M N m) (fun x => repM N M x (fun i j => f j i)).
Proof.
  intros Hm. unfold mat_transpose. eapply returns_bind; [apply mat_default_spec|]. intros d Hd.
  eapply mat_transpose_to_spec; [exact Hm|exact Hd].
Qed.

(** Rows, columns, blocks. *)
Lemma mat_get_column_into_spec M N m f c v g : repM M N m f -> repV M v g -> c < N ->
  returns (mat_get_column_into M N m c v) (fun x => repV M x (fun i => f i c)).
Proof.
  intros Hm Hv Hc. unfold mat_get_column_into. destruct (Nat.leb_spec N c); [lia|]. cbn [andb].
  eapply returns_impl; [eapply (copy_n_spec M m (M * c) v 0 _ g (M * N) M);
    [exact (repM_repV_cell _ _ _ _ Hm)|exact Hv|nia|lia]|].
  intros x Hx. eapply repV_ext; [exact Hx|]. intros i Hi; cbv beta. cbn [Nat.leb Nat.add andb].
  destruct (Nat.ltb_spec i M); [|lia]. rewrite Nat.sub_0_r. replace (M * c + i) with (c * M + i) by lia.
  rewrite cell_mod, cell_div by lia. reflexivity.
Qed.

Lemma mat_get_column_spec M N m f c : repM M N m f -> c < N ->
  returns (mat_get_column M N m c) (fun x => repV M x (fun i => f i c)).
Proof. intros Hm Hc. eapply mat_get_column_into_spec; [exact Hm|apply vec_default_rep|exact Hc]. Qed.

Lemma mat_set_column_spec M N m f c v g : repM M N m f -> repV M v g -> c < N ->
  returns (mat_set_column M N m c v) (fun x => repM M N x (fun i j => if j =? c then g i else f i j)).
Proof.
  intros Hm Hv Hc. unfold mat_set_column. destruct (Nat.leb_spec N c); [lia|]. cbn [andb].
  eapply returns_impl; [eapply (copy_n_spec M v 0 m (M * c) g _ M (M * N));
    [exact Hv|exact (repM_repV_cell _ _ _ _ Hm)|lia|nia]|].
  intros x [Hx1 Hx2]. split; [exact Hx1|]. intros i j Hi Hj.
  rewrite Hx2 by (apply cell_lt; assumption). f_equal. rewrite cell_mod, cell_div by exact Hi.
  destruct (Nat.eqb_spec j c) as [->|Hne].
  - destruct (Nat.leb_spec (M * c) (c * M + i)), (Nat.ltb_spec (c * M + i) (M * c + M)); cbn [andb]; try lia.
    f_equal; lia.
  - destruct (Nat.leb_spec (M * c) (j * M + i)), (Nat.ltb_spec (j * M + i) (M * c + M)); cbn [andb]; auto.
    exfalso. assert (j = c) by nia. contradiction.
Qed.

Lemma mat_get_row_into_spec M N m f r v g : repM M N m f -> repV N v g -> r < M ->
  returns (mat_get_row_into M N m r v) (fun x => repV N x (fun j => f r j)).
Proof.
  intros Hm Hv Hr. unfold mat_get_row_into. destruct (Nat.leb_spec M r); [lia|]. cbn [andb].
  eapply fill1_all; [exact Hv|]. intros c l Hc Hl. cbv beta. rewrite (mat_at_ok M N m f) by auto.
  cbn [bind]. apply vset_ok; exact Hc.
Qed.

Lemma mat_get_row_spec M N m f r : repM M N m f -> r < M ->
  returns (mat_get_row M N m r) (fun x => repV N x (fun j => f r j)).
Proof. intros Hm Hr. eapply mat_get_row_into_spec; [exact Hm|apply vec_default_rep|exact Hr]. Qed.

Lemma mat_set_row_spec M N m f r v g : repM M N m f -> repV N v g -> r < M ->
  returns (mat_set_row M N m r v) (fun x => repM M N x (fun i j => if i =? r then g j else f i j)).
Proof.
  intros Hm Hv Hr. unfold mat_set_row. destruct (Nat.leb_spec M r); [lia|]. cbn [andb].
  eapply returns_impl; [apply (for_inv (fun c x => repM M N x (fun i j => if (i =? r) && (j <? c) then g j else f i j)));
    [lia| |]|].
  - eapply repM_ext; [exact Hm|]. intros i j _ _; cbv beta. rewrite (proj2 (Nat.ltb_ge j 0)) by lia.
    rewrite andb_false_r; reflexivity.
  - intros c x Hc Hx. rewrite (vat_ok N v g) by (auto; lia). cbn [bind].
    eapply returns_impl; [apply (mat_put_rep M N x _ r c (g c) Hx); lia|].
    intros y Hy. eapply repM_ext; [exact Hy|]. intros i j Hi Hj; cbv beta.
    destruct (Nat.eqb_spec i r), (Nat.eqb_spec j c), (Nat.ltb_spec j (S c)), (Nat.ltb_spec j c); cbn; subst; auto; lia.
  - intros x Hx. eapply repM_ext; [exact Hx|]. intros i j Hi Hj; cbv beta.
    destruct (Nat.ltb_spec j N); [|lia]. rewrite andb_true_r; reflexivity.
Qed.

Lemma mat_get_sub_spec M N O P m f s fs ro co : repM M N m f -> repM O P s fs ->
  ro + O <= M -> co + P <= N ->
  returns (mat_get_sub M N O P m s ro co) (fun x => repM O P x (fun i j => f (ro + i) (co + j))).
Proof.
  intros Hm Hs HO HP. unfold mat_get_sub.
  destruct (Nat.ltb_spec M (O + ro)); [lia|]. destruct (Nat.ltb_spec N (P + co)); [lia|]. cbn [orb andb].
  eapply mat_fill_rc_spec; [exact Hs|]. intros r c m' Hr Hc _. rewrite (mat_at_ok M N m f) by (auto; lia). reflexivity.
Qed.

Lemma mat_sub_matrix_spec M N O P m f ro co : repM M N m f ->
  ro + O <= M -> co + P <= N ->
  returns (mat_sub_matrix M N O P m ro co) (fun x => repM O P x (fun i j => f (ro + i) (co + j))).
Proof.
  intros Hm HO HP. unfold mat_sub_matrix. eapply returns_bind; [apply mat_default_spec|]. intros d Hd.
  eapply mat_get_sub_spec; [exact Hm|exact Hd|exact HO|exact HP].
Qed.

(** A block of cells written at an offset. *)
Lemma put_block M N O P m f ro co (h : nat -> nat -> T) (body : nat -> nat -> list T -> res (list T)) :
  repM M N m f -> ro + O <= M -> co + P <= N ->
  (forall r c m', r < O -> c < P -> length m' = M * N ->
     body r c m' = wr m' ((co + c) * M + (ro + r)) (h r c)) ->
  returns (for_ 0 O (fun r => for_ 0 P (body r)) m)
    (fun x => repM M N x (fun i j =>
       if (ro <=? i) && (i <? ro + O) && ((co <=? j) && (j <? co + P)) then h (i - ro) (j - co) else f i j)).
Proof.
  intros Hm HO HP Hb.
  apply (for_inv (fun k x => repM M N x (fun i j =>
       if (ro <=? i) && (i <? ro + k) && ((co <=? j) && (j <? co + P)) then h (i - ro) (j - co) else f i j))); [lia| |].
  - eapply repM_ext; [exact Hm|]. intros i j _ _; cbv beta.
    destruct (Nat.leb_spec ro i), (Nat.ltb_spec i (ro + 0)); cbn; auto; lia.
  - intros r x Hr Hx.
    eapply returns_impl; [apply (for_inv (fun c x => repM M N x (fun i j =>
       if ((ro <=? i) && (i <? ro + r) && ((co <=? j) && (j <? co + P)) ||
           (i =? ro + r) && ((co <=? j) && (j <? co + c))) then h (i - ro) (j - co) else f i j))); [lia| |]|].
    + eapply repM_ext; [exact Hx|]. intros i j _ _; cbv beta.
      destruct (Nat.leb_spec co j), (Nat.ltb_spec j (co + 0)); cbn; rewrite ?andb_false_r, ?orb_false_r; auto; lia.
    + intros c y Hc Hy. rewrite Hb by (try lia; apply Hy).
      destruct (repM_wr M N y _ (ro + r) (co + c) (h r c) Hy ltac:(lia) ltac:(lia)) as [E HR]. rewrite E.
      apply returns_ok. eapply repM_ext; [exact HR|]. intros i j Hi Hj; cbv beta.
      destruct (Nat.eqb_spec i (ro + r)) as [->|Hne]; cbn [andb].
      * destruct (Nat.eqb_spec j (co + c)) as [->|Hne].
        -- destruct (Nat.leb_spec co (co + c)), (Nat.ltb_spec (co + c) (co + S c)); try lia.
           cbn [andb]. rewrite orb_true_r. f_equal; lia.
        -- destruct (Nat.ltb_spec (ro + r) (ro + r)); [lia|]. rewrite andb_false_r. cbn [andb orb].
           destruct (Nat.leb_spec co j), (Nat.ltb_spec j (co + c)), (Nat.ltb_spec j (co + S c)); cbn; auto; lia.
      * rewrite !orb_false_r. reflexivity.
    + intros y Hy. eapply repM_ext; [exact Hy|]. intros i j Hi Hj; cbv beta.
      destruct (Nat.leb_spec ro i), (Nat.ltb_spec i (ro + r)), (Nat.leb_spec co j), (Nat.ltb_spec j (co + P)),
        (Nat.eqb_spec i (ro + r)), (Nat.ltb_spec i (ro + S r)); cbn; auto; lia.
Qed.

Lemma mat_set_sub_spec M N O P m f s fs ro co : repM M N m f -> repM O P s fs ->
  ro + O <= M -> co + P <= N ->
  returns (mat_set_sub M N O P m s ro co)
    (fun x => repM M N x (fun i j =>
       if (ro <=? i) && (i <? ro + O) && ((co <=? j) && (j <? co + P)) then fs (i - ro) (j - co) else f i j)).
Proof.
  intros Hm Hs HO HP. apply put_block; auto. intros r c m' Hr Hc Hl.
  rewrite (mat_at_ok O P s fs) by auto. cbn [bind]. apply mat_put_ok; lia.
Qed.

Lemma mat_direct_sum_spec O P Q R m f ul lr fu fl :
  repM (O + Q) (P + R) m f -> repM O P ul fu -> repM Q R lr fl ->
  returns (mat_direct_sum O P Q R m ul lr)
    (fun x => repM (O + Q) (P + R) x (fun i j =>
       if (i <? O) && (j <? P) then fu i j
       else if (O <=? i) && (P <=? j) then fl (i - O) (j - P) else szero)).
Proof.
  intros Hm Hu Hl. unfold mat_direct_sum.
  eapply returns_bind; [apply (mat_assign_value_spec _ _ m f szero Hm)|]. intros m0 H0.
  eapply returns_bind.
  { apply (put_block (O + Q) (P + R) O P m0 _ 0 0 fu
     (fun r c m => x <- mat_at O P ul r c ;; mat_put (O + Q) (P + R) m r c x) H0); try lia.
    intros r c m' Hr Hc _. rewrite (mat_at_ok O P ul fu) by auto. cbn [bind]. apply mat_put_ok; lia. }
  intros m1 H1. cbv beta in H1.
  eapply returns_impl; [apply (put_block (O + Q) (P + R) Q R m1 _ O P fl
     (fun r c m => x <- mat_at Q R lr r c ;; mat_put (O + Q) (P + R) m (O + r) (P + c) x) H1); try lia|].
  - intros r c m' Hr Hc _. rewrite (mat_at_ok Q R lr fl) by auto. cbn [bind]. apply mat_put_ok; lia.
  - intros x Hx. eapply repM_ext; [exact Hx|]. intros i j Hi Hj; cbv beta. rewrite !Nat.sub_0_r. cbn [Nat.leb Nat.add andb].
    destruct (Nat.leb_spec O i), (Nat.ltb_spec i (O + Q)), (Nat.leb_spec P j), (Nat.ltb_spec j (P + R)),
      (Nat.ltb_spec i O), (Nat.ltb_spec j P); cbn; auto; lia.
Qed.

Lemma mat_diag_spec R m f d g : repM R R m f -> repV R d g ->
  returns (mat_diag R m d) (fun x => repM R R x (fun i j => if i =? j then g i else szero)).
Proof.
  intros Hm Hd. unfold mat_diag. eapply returns_bind; [apply (mat_zero_spec R R m f Hm)|]. intros m0 H0.
  eapply returns_impl; [|].
  - rewrite (for_ext _ (fun r m => mat_put R R m r r (g r))); [apply (put_diag R R m0 _ g R H0); lia|].
    intros k x Hk. rewrite (vat_ok R d g) by (auto; lia). reflexivity.
  - intros x Hx. eapply repM_ext; [exact Hx|]. intros i j Hi Hj; cbv beta.
    destruct (Nat.ltb_spec i R); [|lia]. rewrite andb_true_r; reflexivity.
Qed.
End M.
