(** Lemmas about the Vector model that hold for every element type. *)
From Verif Require Export LBase MVector.

Section V.
Context {cfg : Cfg} {T : Type} {ST : Scalar T}.
Implicit Types u v : list T.

Lemma vat_ok M v f i : repV M v f -> i < M -> vat M v i = Ok (f i).
Proof.
  intros Hv Hi. unfold vat. destruct (Nat.leb_spec M i); [lia|]. cbn [andb].
  eapply repV_rd; eassumption.
Qed.

Lemma vset_ok M v i x : i < M -> vset M v i x = wr v i x.
Proof. intros Hi. unfold vset. destruct (Nat.leb_spec M i); [lia|]. reflexivity. Qed.

Lemma vat_throw M v i : M <= i -> safe = true -> vat M v i = Throw.
Proof. intros Hi Hs; unfold vat. rewrite Hs. destruct (Nat.leb_spec M i); [reflexivity|lia]. Qed.

Lemma vset_throw M v i x : M <= i -> safe = true -> vset M v i x = Throw.
Proof. intros Hi Hs; unfold vset. rewrite Hs. destruct (Nat.leb_spec M i); [reflexivity|lia]. Qed.

Lemma vec_default_rep M : repV M (vec_default M) (fun _ => szero).
Proof. apply repV_repeat. Qed.

Lemma vec_zip_spec M op u v fu fv g :
  repV M u fu -> repV M v fv ->
  (forall i, i < M -> op (fu i) (fv i) = Ok (g i)) ->
  returns (vec_zip M op u v) (fun r => repV M r g).
Proof.
  intros Hu Hv Hop. unfold vec_zip.
  eapply fill1_all; [apply vec_default_rep|]. intros i l' Hi Hl'.
  rewrite (vat_ok M u fu), (vat_ok M v fv) by auto. cbn [bind].
  rewrite Hop by auto. cbn [bind]. apply vset_ok; exact Hi.
Qed.

Lemma vec_zip_inv M op u v fu fv r :
  repV M u fu -> repV M v fv -> vec_zip M op u v = Ok r ->
  forall i, i < M -> exists x, op (fu i) (fv i) = Ok x.
Proof.
  intros Hu Hv E i Hi. unfold vec_zip in E.
  pose proof (for_ok_inv (fun k (_ : list T) => forall i, i < k -> exists x, op (fu i) (fv i) = Ok x)
    _ 0 M _ _ ltac:(lia) E) as H. cbv beta in H.
  apply H; [lia| |exact Hi]. clear i Hi H.
  intros k x x' Hk IH Eb i Hi.
  destruct (Nat.eq_dec i k) as [->|Hne]; [|apply IH; lia].
  rewrite (vat_ok M u fu), (vat_ok M v fv) in Eb by (auto; lia). cbn [bind] in Eb.
  apply bind_ok_inv in Eb as (y & Ey & _). exists y; exact Ey.
Qed.

Lemma vec_map_spec M op u fu g :
  repV M u fu -> (forall i, i < M -> op (fu i) = Ok (g i)) ->
  returns (vec_map M op u) (fun r => repV M r g).
Proof.
  intros Hu Hop. unfold vec_map.
  eapply fill1_all; [apply vec_default_rep|]. intros i l' Hi Hl'.
  rewrite (vat_ok M u fu) by auto. cbn [bind].
  rewrite Hop by auto. cbn [bind]. apply vset_ok; exact Hi.
Qed.

Lemma vec_zip_assign_spec M op v o fv fo g :
  repV M v fv ->
  match o with Val w => repV M w fo | Self => fo = fv end ->
  (forall i, i < M -> op (fv i) (fo i) = Ok (g i)) ->
  returns (vec_zip_assign M op v o) (fun r => repV M r g).
Proof.
  intros Hv Ho Hop. unfold vec_zip_assign.
  eapply fill1_all; [exact Hv|]. intros i l' Hi Hl'. cbv beta.
  assert (Eo : vat M (argl l' o) i = Ok (fo i)).
  { destruct o as [w|]; cbn [argl]; [apply vat_ok; auto|].
    subst fo. rewrite (vat_ok M l' _ i Hl' Hi). rewrite Nat.ltb_irrefl; reflexivity. }
  rewrite Eo. cbn [bind]. rewrite (vat_ok M l' _ i Hl' Hi), Nat.ltb_irrefl. cbn [bind].
  rewrite Hop by exact Hi. cbn [bind]. apply vset_ok; exact Hi.
Qed.

Lemma vec_zip_assign_inv M op v o fv fo r :
  repV M v fv ->
  match o with Val w => repV M w fo | Self => fo = fv end ->
  vec_zip_assign M op v o = Ok r ->
  forall i, i < M -> exists x, op (fv i) (fo i) = Ok x.
Proof.
  intros Hv Ho E i Hi. unfold vec_zip_assign in E.
  pose proof (for_ok_inv (fun k (l : list T) =>
      (length l = M /\ forall i, k <= i < M -> nth_error l i = Some (fv i)) /\
      forall i, i < k -> exists x, op (fv i) (fo i) = Ok x)
    _ 0 M _ _ ltac:(lia) E) as H. cbv beta in H.
  apply H; [| |exact Hi]; clear i Hi H E.
  - split; [split; [apply Hv|]|intros; lia]. intros i Hi; apply Hv; lia.
  - intros k x x' Hk [[Hx Hx2] IH] Eb.
    assert (Ek : vat M x k = Ok (fv k)).
    { unfold vat. destruct (Nat.leb_spec M k); [lia|]. cbn [andb]. apply rd_ok, Hx2; lia. }
    assert (Eo : vat M (argl x o) k = Ok (fo k)).
    { destruct o as [w|]; cbn [argl]; [apply vat_ok; auto; lia|]. subst fo; exact Ek. }
    rewrite Eo, Ek in Eb. cbn [bind] in Eb. apply bind_ok_inv in Eb as (y & Ey & Ew).
    rewrite vset_ok in Ew by lia. rewrite wr_ok in Ew by lia. injection Ew as <-.
    split; [split; [rewrite length_upd; exact Hx|]|].
    + intros i Hi. rewrite nth_error_upd_other by lia. apply Hx2; lia.
    + intros i Hi. destruct (Nat.eq_dec i k) as [->|Hne]; [exists y; exact Ey|apply IH; lia].
Qed.

Lemma vec_map_assign_spec M op v fv g :
  repV M v fv -> (forall i, i < M -> op (fv i) = Ok (g i)) ->
  returns (vec_map_assign M op v) (fun r => repV M r g).
Proof.
  intros Hv Hop. unfold vec_map_assign.
  eapply fill1_all; [exact Hv|]. intros i l' Hi Hl'. cbv beta.
  rewrite (vat_ok M l' _ i Hl' Hi), Nat.ltb_irrefl. cbn [bind].
  rewrite Hop by exact Hi. cbn [bind]. apply vset_ok; exact Hi.
Qed.

Lemma vec_negate_spec M v fv :
  repV M v fv -> returns (vec_negate M v) (fun r => repV M r (fun i => sopp (fv i))).
Proof.
  intros Hv. unfold vec_negate.
  eapply fill1_all; [exact Hv|]. intros i l' Hi Hl'. cbv beta.
  rewrite (repV_rd M l' _ i Hl' Hi), Nat.ltb_irrefl. reflexivity.
Qed.

Lemma vec_dot_spec M u v fu fv :
  repV M u fu -> repV M v fv ->
  vec_dot M u v = Ok (ssum M (fun i => smul (fu i) (fv i))).
Proof.
  intros Hu Hv. unfold vec_dot. apply for_sum. intros i a Hi.
  rewrite (vat_ok M u fu), (vat_ok M v fv) by auto. reflexivity.
Qed.

Lemma vec_squared_length_spec M v fv :
  repV M v fv -> vec_squared_length M v = Ok (ssum M (fun i => smul (fv i) (fv i))).
Proof.
  intros Hv. unfold vec_squared_length. apply for_sum. intros i a Hi.
  rewrite (repV_rd M v fv) by auto. reflexivity.
Qed.

Lemma vec_squared_distance_spec M u v fu fv :
  repV M u fu -> repV M v fv ->
  vec_squared_distance M u v =
  Ok (ssum M (fun i => smul (ssub (fu i) (fv i)) (ssub (fu i) (fv i)))).
Proof.
  intros Hu Hv. unfold vec_squared_distance.
  destruct (vec_zip_assign_spec M (fun a b => Ok (ssub a b)) u (Val v) fu fv
              (fun i => ssub (fu i) (fv i)) Hu Hv ltac:(reflexivity)) as (t & E & Ht).
  unfold vec_sub_assign. rewrite E. cbn [bind]. apply vec_squared_length_spec; exact Ht.
Qed.

Lemma vec_manhattan_spec M v fv :
  repV M v fv -> vec_manhattan M v = Ok (ssum M (fun i => sabs (fv i))).
Proof.
  intros Hv. unfold vec_manhattan. apply for_sum. intros i a Hi.
  rewrite (repV_rd M v fv) by auto. reflexivity.
Qed.

(** Fixed-length vectors as literal lists. *)
Lemma repV3 v f : repV 3 v f -> v = [f 0; f 1; f 2].
Proof.
  intros [Hl Hf]. pose proof (Hf 0 ltac:(lia)); pose proof (Hf 1 ltac:(lia)); pose proof (Hf 2 ltac:(lia)).
  destruct v as [|a [|b [|c [|d v]]]]; cbn in *; try discriminate. congruence.
Qed.
Lemma repV_3 (a b c : T) : repV 3 [a; b; c] (fun i => match i with 0 => a | 1 => b | _ => c end).
Proof. split; [reflexivity|]. intros [|[|[|i]]] Hi; try lia; reflexivity. Qed.
Lemma len3 (v : list T) : length v = 3 -> exists a b c, v = [a; b; c].
Proof. destruct v as [|a [|b [|c [|d v]]]]; cbn; try discriminate; eauto. Qed.
Lemma len4 (v : list T) : length v = 4 -> exists a b c d, v = [a; b; c; d].
Proof. destruct v as [|a [|b [|c [|d [|e v]]]]]; cbn; try discriminate; eauto. Qed.
Lemma repV_4 (a b c d : T) :
  repV 4 [a; b; c; d] (fun i => match i with 0 => a | 1 => b | 2 => c | _ => d end).
Proof. split; [reflexivity|]. intros [|[|[|[|i]]]] Hi; try lia; reflexivity. Qed.
End V.
