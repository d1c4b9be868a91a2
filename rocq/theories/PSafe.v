(** Property C112: on objects of the right sizes every call returns: no access
    outside an array, no exception, whatever the contents (NaN and infinities
    included), in both builds, and the results have the right sizes. *)
From Verif Require Import LBase MVector MMatrix MMatrix2 MQuaternion MAabb MFrustum MMisc MNum MIo MAlias MExtra Spec9.
From Verif Require InstF.
From Coq Require Import ZifyNat.
Local Open Scope nat_scope.
Local Open Scope list_scope.

Section Safe.
Context {cfg : Cfg} {T : Type} {ST : Scalar T} {LT : Lit T} {TT : Trig T} {PT : HasPi T} {AT : Atan2 T} {LO : Lowest T} {XT : Text T}.
Local Notation total_ops := (total_ops T).

Lemma r_any {A} (m : res A) (P : A -> Prop) : returns m P -> returns m (fun _ => True).
Proof. intros H. eapply returns_impl; [exact H|trivial]. Qed.
Lemma sf_div (a b : T) : total_ops -> returns (sdiv a b) (fun _ => True).
Proof. intros [H _]. destruct (H a b) as (c & E). exists c. split; [exact E|exact I]. Qed.
Lemma sf_sqrt (a : T) : total_ops -> returns (ssqrt a) (fun _ => True).
Proof. intros [_ H]. destruct (H a) as (c & E). exists c. split; [exact E|exact I]. Qed.
Lemma sf_rd {A} (l : list A) i : i < length l -> returns (rd l i) (fun _ => True).
Proof. intros H. unfold rd. destruct (nth_error l i) as [x|] eqn:E; [exists x; split; trivial|]. apply nth_error_None in E. lia. Qed.
Lemma len_upd {A} (l : list A) i x : length (upd l i x) = length l.
Proof. revert i. induction l as [|y l IH]; intros [|i]; cbn; auto. Qed.
Lemma sf_wr {A} (l : list A) i x : i < length l -> returns (wr l i x) (fun r => length r = length l).
Proof. intros H. unfold wr. apply Nat.ltb_lt in H. rewrite H. apply returns_ok. apply len_upd. Qed.
Lemma sf_for {S} (Inv : S -> Prop) lo hi (b : nat -> S -> res S) s :
  Inv s -> (forall i x, lo <= i < hi -> Inv x -> returns (b i x) Inv) -> returns (for_ lo hi b s) Inv.
Proof.
  intros H0 Hb. unfold for_. destruct (le_lt_dec hi lo) as [L|L].
  - replace (hi - lo) with 0 by lia. apply returns_ok. exact H0.
  - eapply returns_impl; [apply (for_n_inv (fun _ => Inv)); [exact H0|intros k x Hk; apply Hb; lia]|trivial].
Qed.
Lemma sf_for_list {A} lo hi (b : nat -> list A -> res (list A)) s :
  (forall i x, lo <= i < hi -> length x = length s -> returns (b i x) (fun r => length r = length s)) ->
  returns (for_ lo hi b s) (fun r => length r = length s).
Proof. intros H. apply (sf_for (fun r => length r = length s)); auto. Qed.
Lemma sf_for_lp {A B} lo hi (b : nat -> list A * B -> res (list A * B)) s :
  (forall i x, lo <= i < hi -> length (fst x) = length (fst s) -> returns (b i x) (fun r => length (fst r) = length (fst s))) ->
  returns (for_ lo hi b s) (fun r => length (fst r) = length (fst s)).
Proof. intros H. apply (sf_for (fun r => length (fst r) = length (fst s))); auto. Qed.
Lemma sf_for_ll {A B} lo hi (b : nat -> list A * list B -> res (list A * list B)) s :
  (forall i x, lo <= i < hi -> length (fst x) = length (fst s) /\ length (snd x) = length (snd s) ->
     returns (b i x) (fun r => length (fst r) = length (fst s) /\ length (snd r) = length (snd s))) ->
  returns (for_ lo hi b s) (fun r => length (fst r) = length (fst s) /\ length (snd r) = length (snd s)).
Proof. intros H. apply (sf_for (fun r => length (fst r) = length (fst s) /\ length (snd r) = length (snd s))); auto. Qed.
Lemma sf_for_any {S} lo hi (b : nat -> S -> res S) s :
  (forall i x, lo <= i < hi -> returns (b i x) (fun _ => True)) -> returns (for_ lo hi b s) (fun _ => True).
Proof. intros H. apply (sf_for (fun _ => True)); auto. Qed.
Lemma sf_forr {S A} (Inv : S -> Prop) (P : A -> Prop) lo hi (b : nat -> S -> res (S + A)) s :
  Inv s -> (forall i x, lo <= i < hi -> Inv x -> returns (b i x) (fun r => match r with inl y => Inv y | inr a => P a end)) ->
  returns (forr lo hi b s) (fun r => match r with inl y => Inv y | inr a => P a end).
Proof.
  intros H0 Hb. unfold forr. remember (hi - lo) as n eqn:E. revert lo s H0 E Hb. induction n as [|n IH]; intros lo s H0 E Hb.
  - apply returns_ok. exact H0.
  - cbn [forr_n]. eapply returns_bind; [apply Hb; [lia|exact H0]|]. intros [y|a] Hy.
    + apply IH; [exact Hy|lia|]. intros i x Hi Hx. apply Hb; [lia|exact Hx].
    + apply returns_ok. exact Hy.
Qed.
Lemma sf_forr_any {S A} lo hi (b : nat -> S -> res (S + A)) s :
  (forall i x, lo <= i < hi -> returns (b i x) (fun _ => True)) -> returns (forr lo hi b s) (fun _ => True).
Proof.
  intros H. eapply r_any. apply (sf_forr (fun _ => True) (fun _ => True)); [trivial|]. intros i x Hi _. eapply returns_impl; [apply H; exact Hi|].
  intros [y|a] _; trivial.
Qed.
Lemma sf_copy {A} n (src : list A) so dst d :
  so + n <= length src -> d + n <= length dst -> returns (copy_n n src so dst d) (fun r => length r = length dst).
Proof.
  intros H1 H2. unfold copy_n. apply sf_for_list. intros i x Hi Hx. eapply returns_bind; [apply sf_rd; lia|]. intros a _. rewrite <- Hx. apply sf_wr. lia.
Qed.
Lemma sf_sref (v : list T) s n : length v = n -> sref_of n s -> returns (sref_get v s) (fun _ => True).
Proof. destruct s; cbn; intros H1 H2; [apply returns_ok; trivial|apply sf_rd; lia]. Qed.
Lemma sf_q4 {A} (q : list T) (k : T -> T -> T -> T -> res A) P :
  length q = 4 -> (forall x y z w, returns (k x y z w) P) -> returns (q4 q k) P.
Proof. intros H K. destruct q as [|x [|y [|z [|w [|]]]]]; try discriminate H. apply K. Qed.
Lemma sf_both (f : list T -> res (list T)) b : two3 b -> (forall v, length v = 3 -> returns (f v) (fun r => length r = 3)) -> returns (box_both f b) two3.
Proof.
  intros [H1 H2] K. unfold box_both. eapply returns_bind; [apply K; exact H1|]. intros a Ha. eapply returns_bind; [apply K; exact H2|]. intros c Hc.
  apply returns_ok. split; assumption.
Qed.
Lemma sf_steps (step : list T -> visibility -> res (visibility + visibility)) ps vis :
  (forall p v, length p = 4 -> returns (step p v) (fun _ => True)) -> (forall p, In p ps -> length p = 4) -> returns (fc_steps step ps vis) (fun _ => True).
Proof.
  intros H. revert vis. induction ps as [|p ps IH]; intros vis HP; [apply returns_ok; trivial|]. cbn [fc_steps].
  eapply returns_bind; [apply H; apply HP; left; reflexivity|]. intros [v|v] _; [apply IH; intros q Hq; apply HP; right; exact Hq|apply returns_ok; trivial].
Qed.

Lemma planes4_of (l r b t n f : list T) :
  length l = 4 -> length r = 4 -> length b = 4 -> length t = 4 -> length n = 4 -> length f = 4 -> planes4 (l, r, b, t, n, f).
Proof. intros. intros p [<-|[<-|[<-|[<-|[<-|[<-|[]]]]]]]; assumption. Qed.
Lemma lp_trim_cons (M fuel : nat) (l : list T) : 0 < M -> l <> [] -> lp_trim fuel M l <> [].
Proof.
  intros HM. revert l. induction fuel as [|fuel IH]; intros l Hl; cbn [lp_trim]; [exact Hl|].
  destruct (Nat.ltb_spec M (length l)) as [L|L]; [|exact Hl]. apply IH. intros E. destruct l as [|x [|y l]]; [easy|cbn in L; lia|]. cbn in E. discriminate E.
Qed.
Lemma clampZ_lt (k : Z) (n : nat) : 0 < n -> clampZ k n < n.
Proof. intros H. unfold clampZ. destruct (Z.ltb_spec k 0); cbv zeta; destruct (Z.leb_spec (Z.of_nat n) (if (k <? 0)%Z then 0%Z else k)); destruct (Z.ltb_spec k 0); try lia. all: destruct (Z.leb_spec (Z.of_nat n) 0); try lia. all: destruct (Z.leb_spec (Z.of_nat n) k); lia. Qed.
Ltac head t := lazymatch t with ?f _ => head f | _ => t end.
Ltac Zify.zify_post_hook ::= Z.div_mod_to_equations.
Ltac sf_nat :=
  repeat match goal with
  | H : (_ <? _) = true |- _ => apply Nat.ltb_lt in H
  | H : (_ <? _) = false |- _ => apply Nat.ltb_ge in H
  | H : (_ <=? _) = true |- _ => apply Nat.leb_le in H
  | H : (_ <=? _) = false |- _ => apply Nat.leb_gt in H
  | H : (_ =? _) = true |- _ => apply Nat.eqb_eq in H
  | H : (_ =? _) = false |- _ => apply Nat.eqb_neq in H
  | H : _ && _ = true |- _ => apply andb_true_iff in H
  | H : _ && _ = false |- _ => apply andb_false_iff in H
  | H : _ || _ = true |- _ => apply orb_true_iff in H
  | H : _ || _ = false |- _ => apply orb_false_iff in H
  | H : _ /\ _ |- _ => destruct H
  | H : (_ <? _) = _ \/ _ |- _ => destruct H
  | H : (_ <=? _) = _ \/ _ |- _ => destruct H
  end.
Ltac sf_len :=
  repeat match goal with
  | H : context[length (repeat _ _)] |- _ => rewrite repeat_length in H
  | H : context[length (firstn _ _)] |- _ => rewrite firstn_length in H
  | H : context[length (skipn _ _)] |- _ => rewrite skipn_length in H
  end; rewrite ?repeat_length, ?firstn_length, ?skipn_length.
Ltac sf_side0 :=
  repeat match goal with H : forall _, _ |- _ => clear H | H : total_ops |- _ => clear H | H : res _ |- _ => clear H end;
  cbv beta in *; cbn [fst snd arg_of sref_of] in *; unfold vec_default, two3, q_make, q_IDENTITY, fr_default in *;
  sf_len; cbn [length fst snd] in *; sf_nat.
Ltac sf_side :=
  first [ exact I | assumption |
  sf_side0;
  first [ exact I | assumption | lia | apply clampZ_lt; lia
        | match goal with H : context[if ?b then _ else _] |- _ => let E := fresh in destruct b eqn:E; solve [sf_side] end
        | match goal with |- context[if ?b then _ else _] => let E := fresh in destruct b eqn:E; solve [sf_side] end
        | solve [split; sf_side] | nia ] ].
Ltac sf_intro :=
  intros; cbv beta in *;
  repeat match goal with
  | x : (_ * _)%type |- _ => destruct x
  | x : box _ |- _ => destruct x
  | x : sum _ _ |- _ => destruct x
  | x : unit |- _ => destruct x
  | x : arg _ |- _ => destruct x
  | x : sref _ |- _ => destruct x
  | H : _ /\ _ |- _ => destruct H
  end; cbn [fst snd argl arg_of sref_of sref_get] in *.
Ltac sf_post := sf_intro; first [ exact I | sf_side ].
(* run [t], which proves a [returns] goal up to side conditions, adapting the postcondition *)
Ltac sf_use t :=
  match goal with |- returns _ ?Q => tryif is_evar Q then t else (eapply returns_impl; [t | ]) end.
Ltac sf_step call :=
  cbv beta zeta;
  lazymatch goal with
  | |- returns (Ok _) ?Q => tryif is_evar Q then (apply (returns_ok _ (fun _ => True)); exact I) else (apply returns_ok; sf_post)
  | |- returns (bind _ _) _ => eapply returns_bind
  | |- returns (if ?b && safe then _ else _) _ =>
      replace b with false by (symmetry; rewrite ?orb_false_iff; repeat split; first [apply Nat.leb_gt | apply Nat.ltb_ge]; solve [sf_side]); cbn [andb]
  | |- returns (if ?b then _ else _) _ => let E := fresh "E" in destruct b eqn:E
  | |- returns (match ?x with _ => _ end) _ => destruct x
  | |- returns (rd _ _) _ => sf_use ltac:(eapply sf_rd)
  | |- returns (wr _ _ _) _ => sf_use ltac:(eapply sf_wr)
  | |- returns (sdiv _ _) _ => sf_use ltac:(eapply sf_div)
  | |- returns (ssqrt _) _ => sf_use ltac:(eapply sf_sqrt)
  | |- returns (copy_n _ _ _ _ _) _ => sf_use ltac:(eapply sf_copy)
  | |- returns (sref_get _ _) _ => sf_use ltac:(eapply sf_sref)
  | |- returns (q4 _ _) _ => eapply sf_q4
  | |- returns (box_both _ _) _ => eapply sf_both
  | |- returns (@for_ (list ascii) _ _ _ _) _ => sf_use ltac:(eapply sf_for_any)
  | |- returns (@for_ (list _) _ _ _ _) _ => sf_use ltac:(eapply sf_for_list)
  | |- returns (@for_ (list _ * list _) _ _ _ _) _ => sf_use ltac:(eapply sf_for_ll)
  | |- returns (@for_ (list _ * _) _ _ _ _) _ => sf_use ltac:(eapply sf_for_lp)
  | |- returns (@for_ _ _ _ _ _) _ => sf_use ltac:(eapply sf_for_any)
  | |- returns (forr _ _ _ _) _ => sf_use ltac:(eapply sf_forr_any)
  | |- returns UB _ => exfalso; sf_side0; solve [lia | congruence | intuition lia]
  | |- returns Throw _ => exfalso; sf_side0; solve [lia | congruence | intuition lia]
  | |- returns _ _ => first [ sf_use ltac:(call) | sf_use ltac:(idtac; match goal with H : forall _, _ |- _ => eapply H end) ]
  | |- forall _, _ => sf_intro
  | |- _ => first [ exact I | assumption | solve [sf_side] | solve [eauto] ]
  end.
Ltac sf call := sf_intro; repeat sf_step call.

Lemma sf_vat : forall (M : nat) (v : list T) (i : nat),
    length v = M -> i < M -> returns (vat M v i) (fun _ => True).
Proof. intros. unfold vat. sf ltac:(idtac; fail). Qed.
Lemma sf_vset : forall (M : nat) (v : list T) (i : nat) (x : T),
    length v = M -> i < M -> returns (vset M v i x) (fun r => length r = M).
Proof. intros. unfold vset. sf ltac:(idtac; fail). Qed.
Lemma sf_vec_ctor_fill : forall (M : nat) (g : list T) (a : T),
    length g = M -> returns (vec_ctor_fill M g a) (fun r => length r = M).
Proof. intros. unfold vec_ctor_fill. sf ltac:(idtac; fail). Qed.
Lemma sf_vec_set2 : forall (v : list T) (x : T) (y : T),
    length v = 2 -> returns (vec_set2 v x y) (fun r => length r = 2).
Proof. intros. unfold vec_set2. sf ltac:(idtac; fail). Qed.
Lemma sf_vec_set3 : forall (v : list T) (x : T) (y : T) (z : T),
    length v = 3 -> returns (vec_set3 v x y z) (fun r => length r = 3).
Proof. intros. unfold vec_set3. sf ltac:(idtac; fail). Qed.
Lemma sf_vec_set4 : forall (v : list T) (x : T) (y : T) (z : T) (w : T),
    length v = 4 -> returns (vec_set4 v x y z w) (fun r => length r = 4).
Proof. intros. unfold vec_set4. sf ltac:(idtac; fail). Qed.
Lemma sf_vec_ctor_ptr : forall (M : nat) (g : list T) (values : list T),
    length g = M -> M <= length values -> returns (vec_ctor_ptr M g values) (fun r => length r = M).
Proof. intros. unfold vec_ctor_ptr. sf ltac:(idtac; fail). Qed.
Lemma sf_vec_ctor_last : forall (M : nat) (g : list T) (src : list T) (last : T),
    length g = M -> length src = (M - 1) -> 0 < M -> returns (vec_ctor_last M g src last) (fun r => length r = M).
Proof. intros. unfold vec_ctor_last. sf ltac:(idtac; fail). Qed.
Lemma sf_vec_set_fill : forall (M : nat) (v : list T) (a : T),
    length v = M -> returns (vec_set_fill M v a) (fun r => length r = M).
Proof. intros. unfold vec_set_fill. sf ltac:(idtac; fail). Qed.
Lemma sf_vec_set_last : forall (M : nat) (v : list T) (src : list T) (a : T),
    length v = M -> length src = (M - 1) -> 0 < M -> returns (vec_set_last M v src a) (fun r => length r = M).
Proof. intros. unfold vec_set_last. sf ltac:(idtac; match goal with |- returns ?t _ => let h := head t in lazymatch h with | @vset => eapply sf_vset end end). Qed.
Lemma sf_vec_set_vec : forall (M : nat) (N : nat) (v : list T) (src : list T),
    length v = M -> length src = N -> returns (vec_set_vec M N v src) (fun r => length r = M).
Proof. intros. unfold vec_set_vec. sf ltac:(idtac; fail). Qed.
Lemma sf_vec_zip : forall (M : nat) (op : T -> T -> res T) (u : list T) (v : list T),
    (forall a b, returns (op a b) (fun _ => True)) -> length u = M -> length v = M -> returns (vec_zip M op u v) (fun r => length r = M).
Proof. intros. unfold vec_zip. sf ltac:(idtac; match goal with |- returns ?t _ => let h := head t in lazymatch h with | @vat => eapply sf_vat | @vset => eapply sf_vset end end). Qed.
Lemma sf_vec_map : forall (M : nat) (op : T -> res T) (u : list T),
    (forall a, returns (op a) (fun _ => True)) -> length u = M -> returns (vec_map M op u) (fun r => length r = M).
Proof. intros. unfold vec_map. sf ltac:(idtac; match goal with |- returns ?t _ => let h := head t in lazymatch h with | @vat => eapply sf_vat | @vset => eapply sf_vset end end). Qed.
Lemma sf_vec_mul : forall (M : nat) (u : list T) (v : list T),
    length u = M -> length v = M -> returns (vec_mul M u v) (fun r => length r = M).
Proof. intros. unfold vec_mul. sf ltac:(idtac; match goal with |- returns ?t _ => let h := head t in lazymatch h with | @vec_zip => eapply sf_vec_zip end end). Qed.
Lemma sf_vec_div : forall (M : nat) (u : list T) (v : list T),
    total_ops -> length u = M -> length v = M -> returns (vec_div M u v) (fun r => length r = M).
Proof. intros. unfold vec_div. sf ltac:(idtac; match goal with |- returns ?t _ => let h := head t in lazymatch h with | @vec_zip => eapply sf_vec_zip end end). Qed.
Lemma sf_vec_add : forall (M : nat) (u : list T) (v : list T),
    length u = M -> length v = M -> returns (vec_add M u v) (fun r => length r = M).
Proof. intros. unfold vec_add. sf ltac:(idtac; match goal with |- returns ?t _ => let h := head t in lazymatch h with | @vec_zip => eapply sf_vec_zip end end). Qed.
Lemma sf_vec_sub : forall (M : nat) (u : list T) (v : list T),
    length u = M -> length v = M -> returns (vec_sub M u v) (fun r => length r = M).
Proof. intros. unfold vec_sub. sf ltac:(idtac; match goal with |- returns ?t _ => let h := head t in lazymatch h with | @vec_zip => eapply sf_vec_zip end end). Qed.
Lemma sf_vec_mul_s : forall (M : nat) (v : list T) (x : T),
    length v = M -> returns (vec_mul_s M v x) (fun r => length r = M).
Proof. intros. unfold vec_mul_s. sf ltac:(idtac; match goal with |- returns ?t _ => let h := head t in lazymatch h with | @vec_map => eapply sf_vec_map end end). Qed.
Lemma sf_vec_div_s : forall (M : nat) (v : list T) (x : T),
    total_ops -> length v = M -> returns (vec_div_s M v x) (fun r => length r = M).
Proof. intros. unfold vec_div_s. sf ltac:(idtac; match goal with |- returns ?t _ => let h := head t in lazymatch h with | @vec_map => eapply sf_vec_map end end). Qed.
Lemma sf_vec_add_s : forall (M : nat) (v : list T) (x : T),
    length v = M -> returns (vec_add_s M v x) (fun r => length r = M).
Proof. intros. unfold vec_add_s. sf ltac:(idtac; match goal with |- returns ?t _ => let h := head t in lazymatch h with | @vec_map => eapply sf_vec_map end end). Qed.
Lemma sf_vec_sub_s : forall (M : nat) (v : list T) (x : T),
    length v = M -> returns (vec_sub_s M v x) (fun r => length r = M).
Proof. intros. unfold vec_sub_s. sf ltac:(idtac; match goal with |- returns ?t _ => let h := head t in lazymatch h with | @vec_map => eapply sf_vec_map end end). Qed.
Lemma sf_vec_zip_assign : forall (M : nat) (op : T -> T -> res T) (v : list T) (o : arg T),
    (forall a b, returns (op a b) (fun _ => True)) -> length v = M -> arg_of M M o -> returns (vec_zip_assign M op v o) (fun r => length r = M).
Proof. intros. unfold vec_zip_assign. sf ltac:(idtac; match goal with |- returns ?t _ => let h := head t in lazymatch h with | @vat => eapply sf_vat | @vset => eapply sf_vset end end). Qed.
Lemma sf_vec_map_assign : forall (M : nat) (op : T -> res T) (v : list T),
    (forall a, returns (op a) (fun _ => True)) -> length v = M -> returns (vec_map_assign M op v) (fun r => length r = M).
Proof. intros. unfold vec_map_assign. sf ltac:(idtac; match goal with |- returns ?t _ => let h := head t in lazymatch h with | @vat => eapply sf_vat | @vset => eapply sf_vset end end). Qed.
Lemma sf_vec_mul_assign : forall (M : nat) (v : list T) (o : arg T),
    length v = M -> arg_of M M o -> returns (vec_mul_assign M v o) (fun r => length r = M).
Proof. intros. unfold vec_mul_assign. sf ltac:(idtac; match goal with |- returns ?t _ => let h := head t in lazymatch h with | @vec_zip_assign => eapply sf_vec_zip_assign end end). Qed.
Lemma sf_vec_div_assign : forall (M : nat) (v : list T) (o : arg T),
    total_ops -> length v = M -> arg_of M M o -> returns (vec_div_assign M v o) (fun r => length r = M).
Proof. intros. unfold vec_div_assign. sf ltac:(idtac; match goal with |- returns ?t _ => let h := head t in lazymatch h with | @vec_zip_assign => eapply sf_vec_zip_assign end end). Qed.
Lemma sf_vec_add_assign : forall (M : nat) (v : list T) (o : arg T),
    length v = M -> arg_of M M o -> returns (vec_add_assign M v o) (fun r => length r = M).
Proof. intros. unfold vec_add_assign. sf ltac:(idtac; match goal with |- returns ?t _ => let h := head t in lazymatch h with | @vec_zip_assign => eapply sf_vec_zip_assign end end). Qed.
Lemma sf_vec_sub_assign : forall (M : nat) (v : list T) (o : arg T),
    length v = M -> arg_of M M o -> returns (vec_sub_assign M v o) (fun r => length r = M).
Proof. intros. unfold vec_sub_assign. sf ltac:(idtac; match goal with |- returns ?t _ => let h := head t in lazymatch h with | @vec_zip_assign => eapply sf_vec_zip_assign end end). Qed.
Lemma sf_vec_mul_assign_s : forall (M : nat) (v : list T) (x : T),
    length v = M -> returns (vec_mul_assign_s M v x) (fun r => length r = M).
Proof. intros. unfold vec_mul_assign_s. sf ltac:(idtac; match goal with |- returns ?t _ => let h := head t in lazymatch h with | @vec_map_assign => eapply sf_vec_map_assign end end). Qed.
Lemma sf_vec_div_assign_s : forall (M : nat) (v : list T) (x : T),
    total_ops -> length v = M -> returns (vec_div_assign_s M v x) (fun r => length r = M).
Proof. intros. unfold vec_div_assign_s. sf ltac:(idtac; match goal with |- returns ?t _ => let h := head t in lazymatch h with | @vec_map_assign => eapply sf_vec_map_assign end end). Qed.
Lemma sf_vec_add_assign_s : forall (M : nat) (v : list T) (x : T),
    length v = M -> returns (vec_add_assign_s M v x) (fun r => length r = M).
Proof. intros. unfold vec_add_assign_s. sf ltac:(idtac; match goal with |- returns ?t _ => let h := head t in lazymatch h with | @vec_map_assign => eapply sf_vec_map_assign end end). Qed.
Lemma sf_vec_sub_assign_s : forall (M : nat) (v : list T) (x : T),
    length v = M -> returns (vec_sub_assign_s M v x) (fun r => length r = M).
Proof. intros. unfold vec_sub_assign_s. sf ltac:(idtac; match goal with |- returns ?t _ => let h := head t in lazymatch h with | @vec_map_assign => eapply sf_vec_map_assign end end). Qed.
Lemma sf_vec_negate : forall (M : nat) (v : list T),
    length v = M -> returns (vec_negate M v) (fun r => length r = M).
Proof. intros. unfold vec_negate. sf ltac:(idtac; fail). Qed.
Lemma sf_vec_neg : forall (M : nat) (v : list T),
    length v = M -> returns (vec_neg M v) (fun r => length r = M).
Proof. intros. unfold vec_neg. sf ltac:(idtac; match goal with |- returns ?t _ => let h := head t in lazymatch h with | @vec_negate => eapply sf_vec_negate end end). Qed.
Lemma sf_vec_cross_into : forall (v : list T) (aa : arg T) (bb : arg T),
    length v = 3 -> arg_of 3 3 aa -> arg_of 3 3 bb -> returns (vec_cross_into v aa bb) (fun r => length r = 3).
Proof. intros. unfold vec_cross_into. sf ltac:(idtac; fail). Qed.
Lemma sf_vec_cross : forall (u : list T) (v : list T),
    length u = 3 -> length v = 3 -> returns (vec_cross u v) (fun r => length r = 3).
Proof. intros. unfold vec_cross. sf ltac:(idtac; match goal with |- returns ?t _ => let h := head t in lazymatch h with | @vec_cross_into => eapply sf_vec_cross_into end end). Qed.
Lemma sf_vec_dot : forall (M : nat) (u : list T) (v : list T),
    length u = M -> length v = M -> returns (vec_dot M u v) (fun _ => True).
Proof. intros. unfold vec_dot. sf ltac:(idtac; match goal with |- returns ?t _ => let h := head t in lazymatch h with | @vat => eapply sf_vat end end). Qed.
Lemma sf_vec_squared_length : forall (M : nat) (v : list T),
    length v = M -> returns (vec_squared_length M v) (fun _ => True).
Proof. intros. unfold vec_squared_length. sf ltac:(idtac; fail). Qed.
Lemma sf_vec_length : forall (M : nat) (v : list T),
    total_ops -> length v = M -> returns (vec_length M v) (fun _ => True).
Proof. intros. unfold vec_length. sf ltac:(idtac; match goal with |- returns ?t _ => let h := head t in lazymatch h with | @vec_squared_length => eapply sf_vec_squared_length end end). Qed.
Lemma sf_vec_normalize : forall (M : nat) (v : list T),
    total_ops -> length v = M -> returns (vec_normalize M v) (fun r => length (snd r) = M).
Proof. intros. unfold vec_normalize. sf ltac:(idtac; match goal with |- returns ?t _ => let h := head t in lazymatch h with | @vec_mul_assign_s => eapply sf_vec_mul_assign_s | @vec_length => eapply sf_vec_length end end). Qed.
Lemma sf_vec_normalized : forall (M : nat) (v : list T),
    total_ops -> length v = M -> returns (vec_normalized M v) (fun r => length r = M).
Proof. intros. unfold vec_normalized. sf ltac:(idtac; match goal with |- returns ?t _ => let h := head t in lazymatch h with | @vec_normalize => eapply sf_vec_normalize end end). Qed.
Lemma sf_vec_squared_distance : forall (M : nat) (u : list T) (v : list T),
    length u = M -> length v = M -> returns (vec_squared_distance M u v) (fun _ => True).
Proof. intros. unfold vec_squared_distance. sf ltac:(idtac; match goal with |- returns ?t _ => let h := head t in lazymatch h with | @vec_sub_assign => eapply sf_vec_sub_assign | @vec_squared_length => eapply sf_vec_squared_length end end). Qed.
Lemma sf_vec_distance : forall (M : nat) (u : list T) (v : list T),
    total_ops -> length u = M -> length v = M -> returns (vec_distance M u v) (fun _ => True).
Proof. intros. unfold vec_distance. sf ltac:(idtac; match goal with |- returns ?t _ => let h := head t in lazymatch h with | @vec_squared_distance => eapply sf_vec_squared_distance end end). Qed.
Lemma sf_vec_norm : forall (M : nat) (v : list T),
    total_ops -> length v = M -> returns (vec_norm M v) (fun _ => True).
Proof. intros. unfold vec_norm. sf ltac:(idtac; fail). Qed.
Lemma sf_vec_product : forall (M : nat) (v : list T),
    length v = M -> 0 < M -> returns (vec_product M v) (fun _ => True).
Proof. intros. unfold vec_product. sf ltac:(idtac; match goal with |- returns ?t _ => let h := head t in lazymatch h with | @vat => eapply sf_vat end end). Qed.
Lemma sf_vec_compute_normal_into : forall (v : list T) (aa : arg T) (bb : arg T) (cc : arg T),
    total_ops -> length v = 3 -> arg_of 3 3 aa -> arg_of 3 3 bb -> arg_of 3 3 cc -> returns (vec_compute_normal_into v aa bb cc) (fun r => length r = 3).
Proof. intros. unfold vec_compute_normal_into. sf ltac:(idtac; match goal with |- returns ?t _ => let h := head t in lazymatch h with | @vec_sub => eapply sf_vec_sub | @vec_cross_into => eapply sf_vec_cross_into | @vec_normalize => eapply sf_vec_normalize end end). Qed.
Lemma sf_vec_compute_normal : forall (a : list T) (b : list T) (c : list T),
    total_ops -> length a = 3 -> length b = 3 -> length c = 3 -> returns (vec_compute_normal a b c) (fun r => length r = 3).
Proof. intros. unfold vec_compute_normal. sf ltac:(idtac; match goal with |- returns ?t _ => let h := head t in lazymatch h with | @vec_compute_normal_into => eapply sf_vec_compute_normal_into end end). Qed.
Lemma sf_vec_sub_vector : forall (N : nat) (v : list T) (offset : nat),
    offset + N <= length v -> returns (vec_sub_vector N v offset) (fun r => length r = N).
Proof. intros. unfold vec_sub_vector. sf ltac:(idtac; fail). Qed.
Lemma sf_vec_sub_vector_set : forall (N : nat) (v : list T) (offset : nat) (i : nat) (x : T),
    i < N -> offset + N <= length v -> returns (vec_sub_vector_set N v offset i x) (fun r => length r = (length v)).
Proof. intros. unfold vec_sub_vector_set. sf ltac:(idtac; fail). Qed.
Lemma sf_vec_to_hom : forall (M : nat) (v : list T) (src : list T),
    length v = M -> length src = (M - 1) -> 0 < M -> returns (vec_to_hom M v src) (fun r => length r = M).
Proof. intros. unfold vec_to_hom. sf ltac:(idtac; match goal with |- returns ?t _ => let h := head t in lazymatch h with | @vset => eapply sf_vset end end). Qed.
Lemma sf_vec_from_hom : forall (M : nat) (v : list T) (src : list T),
    total_ops -> length v = M -> length src = (M + 1) -> returns (vec_from_hom M v src) (fun r => length r = M).
Proof. intros. unfold vec_from_hom. sf ltac:(idtac; match goal with |- returns ?t _ => let h := head t in lazymatch h with | @vat => eapply sf_vat end end). Qed.
Lemma sf_vec_compute_plane : forall (a : list T) (b : list T) (c : list T),
    total_ops -> length a = 3 -> length b = 3 -> length c = 3 -> returns (vec_compute_plane a b c) (fun r => length r = 4).
Proof. intros. unfold vec_compute_plane. sf ltac:(idtac; match goal with |- returns ?t _ => let h := head t in lazymatch h with | @vec_sub => eapply sf_vec_sub | @vec_cross => eapply sf_vec_cross | @vec_normalize => eapply sf_vec_normalize | @vec_to_hom => eapply sf_vec_to_hom end end). Qed.
Lemma sf_vec_project_sphere : forall (sphere : list T) (point : list T),
    total_ops -> length sphere = 4 -> length point = 3 -> returns (vec_project_sphere sphere point) (fun r => length r = 3).
Proof. intros. unfold vec_project_sphere. sf ltac:(idtac; match goal with |- returns ?t _ => let h := head t in lazymatch h with | @vec_add => eapply sf_vec_add | @vec_sub_assign => eapply sf_vec_sub_assign | @vec_mul_assign_s => eapply sf_vec_mul_assign_s | @vec_normalize => eapply sf_vec_normalize | @vec_sub_vector => eapply sf_vec_sub_vector end end). Qed.
Lemma sf_vec_dist_sphere : forall (sphere : list T) (point : list T),
    total_ops -> length sphere = 4 -> length point = 3 -> returns (vec_dist_sphere sphere point) (fun _ => True).
Proof. intros. unfold vec_dist_sphere. sf ltac:(idtac; match goal with |- returns ?t _ => let h := head t in lazymatch h with | @vec_sub => eapply sf_vec_sub | @vec_length => eapply sf_vec_length | @vec_sub_vector => eapply sf_vec_sub_vector end end). Qed.
Lemma sf_vec_dist_plane : forall (plane : list T) (point : list T),
    length plane = 4 -> length point = 3 -> returns (vec_dist_plane plane point) (fun _ => True).
Proof. intros. unfold vec_dist_plane. sf ltac:(idtac; match goal with |- returns ?t _ => let h := head t in lazymatch h with | @vec_dot => eapply sf_vec_dot | @vec_sub_vector => eapply sf_vec_sub_vector end end). Qed.
Lemma sf_vec_project_plane : forall (plane : list T) (point : list T),
    length plane = 4 -> length point = 3 -> returns (vec_project_plane plane point) (fun r => length r = 3).
Proof. intros. unfold vec_project_plane. sf ltac:(idtac; match goal with |- returns ?t _ => let h := head t in lazymatch h with | @vec_sub => eapply sf_vec_sub | @vec_mul_s => eapply sf_vec_mul_s | @vec_sub_vector => eapply sf_vec_sub_vector | @vec_dist_plane => eapply sf_vec_dist_plane end end). Qed.
Lemma sf_vec_equals : forall (M : nat) (u : list T) (v : list T) (tol : T),
    length u = M -> length v = M -> returns (vec_equals M u v tol) (fun _ => True).
Proof. intros. unfold vec_equals. sf ltac:(idtac; match goal with |- returns ?t _ => let h := head t in lazymatch h with | @vat => eapply sf_vat end end). Qed.
Lemma sf_vec_equals_default : forall (M : nat) (u : list T) (v : list T),
    length u = M -> length v = M -> returns (vec_equals_default M u v) (fun _ => True).
Proof. intros. unfold vec_equals_default. sf ltac:(idtac; match goal with |- returns ?t _ => let h := head t in lazymatch h with | @vec_equals => eapply sf_vec_equals end end). Qed.
Lemma sf_vec_less : forall (M : nat) (u : list T) (v : list T),
    length u = M -> length v = M -> returns (vec_less M u v) (fun _ => True).
Proof. intros. unfold vec_less. sf ltac:(idtac; match goal with |- returns ?t _ => let h := head t in lazymatch h with | @vat => eapply sf_vat end end). Qed.
Lemma sf_vec_iter_set : forall (M : nat) (v : list T) (src : list T),
    length v = M -> returns (vec_iter_set M v src) (fun r => length r = M).
Proof. intros. unfold vec_iter_set. sf ltac:(idtac; fail). Qed.
Lemma sf_vec_assign_ptr : forall (M : nat) (v : list T) (c_array : list T),
    length v = M -> M <= length c_array -> returns (vec_assign_ptr M v c_array) (fun r => length r = M).
Proof. intros. unfold vec_assign_ptr. sf ltac:(idtac; fail). Qed.
Lemma sf_vec_assign_fill : forall (M : nat) (v : list T) (x : T),
    length v = M -> returns (vec_assign_fill M v x) (fun r => length r = M).
Proof. intros. unfold vec_assign_fill. sf ltac:(idtac; match goal with |- returns ?t _ => let h := head t in lazymatch h with | @vset => eapply sf_vset end end). Qed.
Lemma sf_vec_assign : forall (M : nat) (v : list T) (o : arg T),
    length v = M -> arg_of M M o -> returns (vec_assign M v o) (fun r => length r = M).
Proof. intros. unfold vec_assign. sf ltac:(idtac; fail). Qed.
Lemma sf_vec_cast_from : forall {U : Type} (cast : U -> T) (M : nat) (v : list T) (src : list U),
    length v = M -> length src = M -> returns (vec_cast_from cast M v src) (fun r => length r = M).
Proof. intros. unfold vec_cast_from. sf ltac:(idtac; fail). Qed.
Lemma sf_vec_clamp : forall (M : nat) (v : list T) (mn : T) (mx : T),
    length v = M -> returns (vec_clamp M v mn mx) (fun r => length r = M).
Proof. intros. unfold vec_clamp. sf ltac:(idtac; fail). Qed.
Lemma sf_vec_scale_to : forall {U : Type} (cast : T -> U) (maxTT : T) (M : nat) (v : list T) (result : list U) (mn : T) (mx : T),
    total_ops -> length v = M -> length result = M -> returns (vec_scale_to cast maxTT M v result mn mx) (fun r => length r = M).
Proof. intros. unfold vec_scale_to. sf ltac:(idtac; match goal with |- returns ?t _ => let h := head t in lazymatch h with | @vat => eapply sf_vat end end). Qed.
Lemma sf_min_element_by : forall (cmp : T -> T -> bool) (v : list T),
    returns (min_element_by cmp v) (fun r => r < (Nat.max 1 (length v))).
Proof. intros. unfold min_element_by. apply (sf_for (fun r => r < Nat.max 1 (length v))); [lia|]. intros i x Hi Hx. eapply returns_bind; [apply sf_rd; lia|]. intros a _. eapply returns_bind; [apply sf_rd; lia|]. intros b _. apply returns_ok. destruct (cmp a b); lia. Qed.
Lemma sf_max_element_by : forall (cmp : T -> T -> bool) (v : list T),
    returns (max_element_by cmp v) (fun r => r < (Nat.max 1 (length v))).
Proof. intros. unfold max_element_by. apply (sf_for (fun r => r < Nat.max 1 (length v))); [lia|]. intros i x Hi Hx. eapply returns_bind; [apply sf_rd; lia|]. intros a _. eapply returns_bind; [apply sf_rd; lia|]. intros b _. apply returns_ok. destruct (cmp b a); lia. Qed.
Lemma sf_vec_find_min_index : forall (v : list T),
    returns (vec_find_min_index v) (fun r => r < (Nat.max 1 (length v))).
Proof. intros. unfold vec_find_min_index. sf ltac:(idtac; match goal with |- returns ?t _ => let h := head t in lazymatch h with | @min_element_by => eapply sf_min_element_by end end). Qed.
Lemma sf_vec_find_max_index : forall (v : list T),
    returns (vec_find_max_index v) (fun r => r < (Nat.max 1 (length v))).
Proof. intros. unfold vec_find_max_index. sf ltac:(idtac; match goal with |- returns ?t _ => let h := head t in lazymatch h with | @max_element_by => eapply sf_max_element_by end end). Qed.
Lemma sf_vec_find_abs_min_index : forall (v : list T),
    returns (vec_find_abs_min_index v) (fun r => r < (Nat.max 1 (length v))).
Proof. intros. unfold vec_find_abs_min_index. sf ltac:(idtac; match goal with |- returns ?t _ => let h := head t in lazymatch h with | @min_element_by => eapply sf_min_element_by end end). Qed.
Lemma sf_vec_find_abs_max_index : forall (v : list T),
    returns (vec_find_abs_max_index v) (fun r => r < (Nat.max 1 (length v))).
Proof. intros. unfold vec_find_abs_max_index. sf ltac:(idtac; match goal with |- returns ?t _ => let h := head t in lazymatch h with | @max_element_by => eapply sf_max_element_by end end). Qed.
Lemma sf_vec_find_min : forall (v : list T),
    0 < length v -> returns (vec_find_min v) (fun _ => True).
Proof. intros. unfold vec_find_min. sf ltac:(idtac; match goal with |- returns ?t _ => let h := head t in lazymatch h with | @vec_find_min_index => eapply sf_vec_find_min_index end end). Qed.
Lemma sf_vec_find_max : forall (v : list T),
    0 < length v -> returns (vec_find_max v) (fun _ => True).
Proof. intros. unfold vec_find_max. sf ltac:(idtac; match goal with |- returns ?t _ => let h := head t in lazymatch h with | @vec_find_max_index => eapply sf_vec_find_max_index end end). Qed.
Lemma sf_vec_is_unit_vector : forall (M : nat) (v : list T),
    length v = M -> returns (vec_is_unit_vector M v) (fun _ => True).
Proof. intros. unfold vec_is_unit_vector. sf ltac:(idtac; fail). Qed.
Lemma sf_vec_sqrt : forall (M : nat) (v : list T),
    total_ops -> length v = M -> returns (vec_sqrt M v) (fun r => length r = M).
Proof. intros. unfold vec_sqrt. sf ltac:(idtac; fail). Qed.
Lemma sf_vec_reciprocal : forall (M : nat) (v : list T),
    total_ops -> length v = M -> returns (vec_reciprocal M v) (fun r => length r = M).
Proof. intros. unfold vec_reciprocal. sf ltac:(idtac; fail). Qed.
Lemma sf_vec_reciprocal_safe : forall (M : nat) (v : list T),
    total_ops -> length v = M -> returns (vec_reciprocal_safe M v) (fun r => length r = M).
Proof. intros. unfold vec_reciprocal_safe. sf ltac:(idtac; fail). Qed.
Lemma sf_vec_nnz : forall (M : nat) (v : list T),
    length v = M -> returns (vec_nnz M v) (fun _ => True).
Proof. intros. unfold vec_nnz. sf ltac:(idtac; fail). Qed.
Lemma sf_vec_perturb : forall (rnd : Z -> nat -> Z) (M : nat) (v : list T) (p : T) (st : rng),
    length v = M -> returns (vec_perturb rnd M v p st) (fun r => length (fst r) = M).
Proof. intros. unfold vec_perturb. sf ltac:(idtac; fail). Qed.
Lemma sf_vec_set_random : forall (rnd : Z -> nat -> Z) (RAND_MAX : Z) (ofZ : Z -> T) (M : nat) (v : list T) (seed : Z) (st : rng),
    total_ops -> length v = M -> returns (vec_set_random rnd RAND_MAX ofZ M v seed st) (fun r => length (fst r) = M).
Proof. intros. unfold vec_set_random. sf ltac:(idtac; match goal with |- returns ?t _ => let h := head t in lazymatch h with | @vset => eapply sf_vset end end). Qed.
Lemma sf_vec_zero : forall (M : nat) (v : list T),
    length v = M -> returns (vec_zero M v) (fun r => length r = M).
Proof. intros. unfold vec_zero. sf ltac:(idtac; fail). Qed.
Lemma sf_vec_min : forall (M : nat) (u : list T) (v : list T),
    length u = M -> length v = M -> returns (vec_min M u v) (fun r => length r = M).
Proof. intros. unfold vec_min. sf ltac:(idtac; fail). Qed.
Lemma sf_vec_max : forall (M : nat) (u : list T) (v : list T),
    length u = M -> length v = M -> returns (vec_max M u v) (fun r => length r = M).
Proof. intros. unfold vec_max. sf ltac:(idtac; fail). Qed.
Lemma sf_vec_manhattan : forall (M : nat) (v : list T),
    length v = M -> returns (vec_manhattan M v) (fun _ => True).
Proof. intros. unfold vec_manhattan. sf ltac:(idtac; fail). Qed.
Lemma sf_vec_rotate : forall (v : list T) (theta : T) (axis : list T),
    total_ops -> length v = 3 -> length axis = 3 -> returns (vec_rotate v theta axis) (fun r => length r = 3).
Proof. intros. unfold vec_rotate. sf ltac:(idtac; match goal with |- returns ?t _ => let h := head t in lazymatch h with | @vec_set3 => eapply sf_vec_set3 | @vec_normalize => eapply sf_vec_normalize end end). Qed.
Lemma sf_mat_at : forall (M : nat) (N : nat) (m : list T) (r : nat) (c : nat),
    length m = (M * N) -> r < M -> c < N -> returns (mat_at M N m r c) (fun _ => True).
Proof. intros. unfold mat_at. sf ltac:(idtac; fail). Qed.
Lemma sf_mat_put : forall (M : nat) (N : nat) (m : list T) (r : nat) (c : nat) (x : T),
    length m = (M * N) -> r < M -> c < N -> returns (mat_put M N m r c x) (fun r => length r = (M * N)).
Proof. intros. unfold mat_put. sf ltac:(idtac; fail). Qed.
Lemma sf_mat_sq_at : forall (M : nat) (N : nat) (m : list T) (r : nat) (c : nat),
    length m = (M * N) -> r < M -> c < N -> returns (mat_sq_at M N m r c) (fun _ => True).
Proof. intros. unfold mat_sq_at. sf ltac:(idtac; fail). Qed.
Lemma sf_mat_sq_put : forall (M : nat) (N : nat) (m : list T) (r : nat) (c : nat) (x : T),
    length m = (M * N) -> r < M -> c < N -> returns (mat_sq_put M N m r c x) (fun r => length r = (M * N)).
Proof. intros. unfold mat_sq_put. sf ltac:(idtac; fail). Qed.
Lemma sf_mat_fill_rc : forall (M : nat) (N : nat) (g : nat -> nat -> list T -> res T) (m : list T),
    (forall r c m, r < M -> c < N -> length m = M * N -> returns (g r c m) (fun _ => True)) -> length m = (M * N) -> returns (mat_fill_rc M N g m) (fun r => length r = (M * N)).
Proof. intros. unfold mat_fill_rc. sf ltac:(idtac; match goal with |- returns ?t _ => let h := head t in lazymatch h with | @mat_put => eapply sf_mat_put end end). Qed.
Lemma sf_mat_fill : forall (M : nat) (N : nat) (m : list T) (x : T),
    length m = (M * N) -> returns (mat_fill M N m x) (fun r => length r = (M * N)).
Proof. intros. unfold mat_fill. sf ltac:(idtac; match goal with |- returns ?t _ => let h := head t in lazymatch h with | @mat_fill_rc => eapply sf_mat_fill_rc end end). Qed.
Lemma sf_mat_zero : forall (M : nat) (N : nat) (m : list T),
    length m = (M * N) -> returns (mat_zero M N m) (fun r => length r = (M * N)).
Proof. intros. unfold mat_zero. sf ltac:(idtac; match goal with |- returns ?t _ => let h := head t in lazymatch h with | @mat_fill => eapply sf_mat_fill end end). Qed.
Lemma sf_mat_assign_value : forall (M : nat) (N : nat) (m : list T) (x : T),
    length m = (M * N) -> returns (mat_assign_value M N m x) (fun r => length r = (M * N)).
Proof. intros. unfold mat_assign_value. sf ltac:(idtac; fail). Qed.
Lemma sf_mat_default : forall (M : nat) (N : nat),
    returns (mat_default M N) (fun r => length r = (M * N)).
Proof. intros. unfold mat_default. sf ltac:(idtac; match goal with |- returns ?t _ => let h := head t in lazymatch h with | @mat_put => eapply sf_mat_put end end). Qed.
Lemma sf_mat_identity : forall (M : nat) (m : list T),
    length m = (M * M) -> returns (mat_identity M M m) (fun r => length r = (M * M)).
Proof. intros. unfold mat_identity. sf ltac:(idtac; match goal with |- returns ?t _ => let h := head t in lazymatch h with | @mat_put => eapply sf_mat_put | @mat_assign_value => eapply sf_mat_assign_value end end). Qed.
Lemma sf_mat_IDENTITY : forall (M : nat),
    returns (mat_IDENTITY M) (fun r => length r = (M * M)).
Proof. intros. unfold mat_IDENTITY. sf ltac:(idtac; match goal with |- returns ?t _ => let h := head t in lazymatch h with | @mat_default => eapply sf_mat_default | @mat_identity => eapply sf_mat_identity end end). Qed.
Lemma sf_mat_ZERO : forall (M : nat) (N : nat),
    returns (mat_ZERO M N) (fun r => length r = (M * N)).
Proof. intros. unfold mat_ZERO. sf ltac:(idtac; match goal with |- returns ?t _ => let h := head t in lazymatch h with | @mat_assign_value => eapply sf_mat_assign_value | @mat_default => eapply sf_mat_default end end). Qed.
Lemma sf_mat_assign : forall (M : nat) (N : nat) (m : list T) (o : arg T),
    length m = (M * N) -> arg_of (M * N) (M * N) o -> returns (mat_assign M N m o) (fun r => length r = (M * N)).
Proof. intros. unfold mat_assign. sf ltac:(idtac; fail). Qed.
Lemma sf_mat_assign_resize : forall {U : Type} (cast : U -> T) (M : nat) (N : nat) (P : nat) (Q : nat) (m : list T) (src : list U),
    length m = (M * N) -> length src = (P * Q) -> returns (mat_assign_resize cast M N P Q m src) (fun r => length r = (M * N)).
Proof. intros. unfold mat_assign_resize. sf ltac:(idtac; match goal with |- returns ?t _ => let h := head t in lazymatch h with | @mat_put => eapply sf_mat_put | @mat_zero => eapply sf_mat_zero end end). Qed.
Lemma sf_mat_assign_2d : forall (M : nat) (N : nat) (m : list T) (a : list T),
    length m = (M * N) -> (M * N) <= length a -> returns (mat_assign_2d M N m a) (fun r => length r = (M * N)).
Proof. intros. unfold mat_assign_2d. sf ltac:(idtac; match goal with |- returns ?t _ => let h := head t in lazymatch h with | @mat_fill_rc => eapply sf_mat_fill_rc end end). Qed.
Lemma sf_mat_set_rm : forall (M : nat) (N : nat) (m : list T) (src : list T),
    length m = (M * N) -> returns (mat_set M N m src true) (fun r => length r = (M * N)).
Proof. intros M N m src H. unfold mat_set. eapply returns_bind; [apply (sf_forr (fun r => length r = M * N) (fun r => length r = M * N)); [exact H|]|]. { intros i x Hi Hx. apply (sf_forr (fun r => length r = M * N) (fun r => length r = M * N)); [exact Hx|]. intros j y Hj Hy. destruct (length src <=? i * N + j) eqn:E; [apply returns_ok; exact Hy|]. apply Nat.leb_gt in E. eapply returns_bind; [apply sf_rd; exact E|]. intros a _. eapply returns_bind; [apply sf_mat_put; [exact Hy|lia|lia]|]. intros b Hb. apply returns_ok. exact Hb. } intros [r|r] Hr; apply returns_ok; exact Hr. Qed.
Lemma sf_mat_set_cm : forall (M : nat) (N : nat) (m : list T) (src : list T),
    length m = (M * N) -> (M * N) <= length src -> returns (mat_set M N m src false) (fun r => length r = (M * N)).
Proof. intros. unfold mat_set. sf ltac:(idtac; match goal with |- returns ?t _ => let h := head t in lazymatch h with | @mat_put => eapply sf_mat_put end end). Qed.
Lemma sf_mat_assign_ptr : forall (M : nat) (N : nat) (m : list T) (data : list T),
    length m = (M * N) -> (M * N) <= length data -> returns (mat_assign_ptr M N m data) (fun r => length r = (M * N)).
Proof. intros. unfold mat_assign_ptr. sf ltac:(idtac; match goal with |- returns ?t _ => let h := head t in lazymatch h with | @mat_fill_rc => eapply sf_mat_fill_rc end end). Qed.
Lemma sf_mat_assign_vector : forall (M : nat) (N : nat) (m : list T) (data : list T),
    length m = (M * N) -> (M * N) <= length data -> returns (mat_assign_vector M N m data) (fun r => length r = (M * N)).
Proof. intros. unfold mat_assign_vector. sf ltac:(idtac; match goal with |- returns ?t _ => let h := head t in lazymatch h with | @mat_set => first [eapply sf_mat_set_rm | eapply sf_mat_set_cm] end end). Qed.
Lemma sf_mat_cast_from : forall {U : Type} (cast : U -> T) (M : nat) (N : nat) (m : list T) (src : list U),
    length m = (M * N) -> length src = (M * N) -> returns (mat_cast_from cast M N m src) (fun r => length r = (M * N)).
Proof. intros. unfold mat_cast_from. sf ltac:(idtac; fail). Qed.
Lemma sf_mat_eq : forall (M : nat) (N : nat) (m : list T) (o : list T),
    length m = (M * N) -> length o = (M * N) -> returns (mat_eq M N m o) (fun _ => True).
Proof. intros. unfold mat_eq. sf ltac:(idtac; fail). Qed.
Lemma sf_mat_neq : forall (M : nat) (N : nat) (m : list T) (o : list T),
    length m = (M * N) -> length o = (M * N) -> returns (mat_neq M N m o) (fun _ => True).
Proof. intros. unfold mat_neq. sf ltac:(idtac; match goal with |- returns ?t _ => let h := head t in lazymatch h with | @mat_eq => eapply sf_mat_eq end end). Qed.
Lemma sf_mat_equals_by : forall (cmp : T -> T -> bool) (M : nat) (N : nat) (m : list T) (o : list T),
    length m = (M * N) -> length o = (M * N) -> returns (mat_equals_by cmp M N m o) (fun _ => True).
Proof. intros. unfold mat_equals_by. sf ltac:(idtac; match goal with |- returns ?t _ => let h := head t in lazymatch h with | @mat_at => eapply sf_mat_at end end). Qed.
Lemma sf_mat_equals : forall (M : nat) (N : nat) (m : list T) (o : list T) (tol : T),
    length m = (M * N) -> length o = (M * N) -> returns (mat_equals M N m o tol) (fun _ => True).
Proof. intros. unfold mat_equals. sf ltac:(idtac; match goal with |- returns ?t _ => let h := head t in lazymatch h with | @mat_equals_by => eapply sf_mat_equals_by end end). Qed.
Lemma sf_mat_mul_piecewise : forall (M : nat) (N : nat) (m : list T) (o : arg T),
    length m = (M * N) -> arg_of (M * N) (M * N) o -> returns (mat_mul_piecewise M N m o) (fun r => length r = (M * N)).
Proof. intros. unfold mat_mul_piecewise. sf ltac:(idtac; match goal with |- returns ?t _ => let h := head t in lazymatch h with | @mat_at => eapply sf_mat_at | @mat_fill_rc => eapply sf_mat_fill_rc end end). Qed.
Lemma sf_mat_multiply : forall (M : nat) (P : nat) (N : nat) (m : list T) (left : arg T) (right : arg T),
    length m = (M * N) -> arg_of (M * N) (M * P) left -> arg_of (M * N) (P * N) right -> returns (mat_multiply M P N m left right) (fun r => length r = (M * N)).
Proof. intros. unfold mat_multiply. sf ltac:(idtac; match goal with |- returns ?t _ => let h := head t in lazymatch h with | @mat_at => eapply sf_mat_at | @mat_put => eapply sf_mat_put end end). Qed.
Lemma sf_mat_mul : forall (M : nat) (N : nat) (P : nat) (m : list T) (o : list T),
    length m = (M * N) -> length o = (N * P) -> returns (mat_mul M N P m o) (fun r => length r = (M * P)).
Proof. intros. unfold mat_mul. sf ltac:(idtac; match goal with |- returns ?t _ => let h := head t in lazymatch h with | @mat_default => eapply sf_mat_default | @mat_multiply => eapply sf_mat_multiply end end). Qed.
Lemma sf_mat_mul_assign : forall (M : nat) (m : list T) (o : arg T),
    length m = (M * M) -> arg_of (M * M) (M * M) o -> returns (mat_mul_assign M m o) (fun r => length r = (M * M)).
Proof. intros. unfold mat_mul_assign. sf ltac:(idtac; match goal with |- returns ?t _ => let h := head t in lazymatch h with | @mat_multiply => eapply sf_mat_multiply end end). Qed.
Lemma sf_mat_map_s : forall (M : nat) (N : nat) (op : T -> res T) (m : list T),
    (forall a, returns (op a) (fun _ => True)) -> length m = (M * N) -> returns (mat_map_s M N op m) (fun r => length r = (M * N)).
Proof. intros. unfold mat_map_s. sf ltac:(idtac; match goal with |- returns ?t _ => let h := head t in lazymatch h with | @mat_at => eapply sf_mat_at | @mat_fill_rc => eapply sf_mat_fill_rc | @mat_default => eapply sf_mat_default end end). Qed.
Lemma sf_mat_div_s : forall (M : nat) (N : nat) (m : list T) (x : T),
    total_ops -> length m = (M * N) -> returns (mat_div_s M N m x) (fun r => length r = (M * N)).
Proof. intros. unfold mat_div_s. sf ltac:(idtac; match goal with |- returns ?t _ => let h := head t in lazymatch h with | @mat_map_s => eapply sf_mat_map_s end end). Qed.
Lemma sf_mat_mul_s : forall (M : nat) (N : nat) (m : list T) (x : T),
    length m = (M * N) -> returns (mat_mul_s M N m x) (fun r => length r = (M * N)).
Proof. intros. unfold mat_mul_s. sf ltac:(idtac; match goal with |- returns ?t _ => let h := head t in lazymatch h with | @mat_map_s => eapply sf_mat_map_s end end). Qed.
Lemma sf_mat_map_assign_s : forall (M : nat) (N : nat) (op : T -> res T) (m : list T),
    (forall a, returns (op a) (fun _ => True)) -> length m = (M * N) -> returns (mat_map_assign_s M N op m) (fun r => length r = (M * N)).
Proof. intros. unfold mat_map_assign_s. sf ltac:(idtac; match goal with |- returns ?t _ => let h := head t in lazymatch h with | @mat_at => eapply sf_mat_at | @mat_fill_rc => eapply sf_mat_fill_rc end end). Qed.
Lemma sf_mat_div_assign_s : forall (M : nat) (N : nat) (m : list T) (x : T),
    total_ops -> length m = (M * N) -> returns (mat_div_assign_s M N m x) (fun r => length r = (M * N)).
Proof. intros. unfold mat_div_assign_s. sf ltac:(idtac; match goal with |- returns ?t _ => let h := head t in lazymatch h with | @mat_map_assign_s => eapply sf_mat_map_assign_s end end). Qed.
Lemma sf_mat_mul_assign_s : forall (M : nat) (N : nat) (m : list T) (x : T),
    length m = (M * N) -> returns (mat_mul_assign_s M N m x) (fun r => length r = (M * N)).
Proof. intros. unfold mat_mul_assign_s. sf ltac:(idtac; match goal with |- returns ?t _ => let h := head t in lazymatch h with | @mat_map_assign_s => eapply sf_mat_map_assign_s end end). Qed.
Lemma sf_mat_iter_zip : forall (M : nat) (N : nat) (op : T -> T -> T) (m : list T) (o : arg T),
    length m = (M * N) -> arg_of (M * N) (M * N) o -> returns (mat_iter_zip M N op m o) (fun r => length r = (M * N)).
Proof. intros. unfold mat_iter_zip. sf ltac:(idtac; fail). Qed.
Lemma sf_mat_add_assign : forall (M : nat) (N : nat) (m : list T) (o : arg T),
    length m = (M * N) -> arg_of (M * N) (M * N) o -> returns (mat_add_assign M N m o) (fun r => length r = (M * N)).
Proof. intros. unfold mat_add_assign. sf ltac:(idtac; match goal with |- returns ?t _ => let h := head t in lazymatch h with | @mat_iter_zip => eapply sf_mat_iter_zip end end). Qed.
Lemma sf_mat_sub_assign : forall (M : nat) (N : nat) (m : list T) (o : arg T),
    length m = (M * N) -> arg_of (M * N) (M * N) o -> returns (mat_sub_assign M N m o) (fun r => length r = (M * N)).
Proof. intros. unfold mat_sub_assign. sf ltac:(idtac; match goal with |- returns ?t _ => let h := head t in lazymatch h with | @mat_iter_zip => eapply sf_mat_iter_zip end end). Qed.
Lemma sf_mat_iter_map : forall (M : nat) (N : nat) (op : T -> T) (m : list T),
    length m = (M * N) -> returns (mat_iter_map M N op m) (fun r => length r = (M * N)).
Proof. intros. unfold mat_iter_map. sf ltac:(idtac; fail). Qed.
Lemma sf_mat_add_assign_s : forall (M : nat) (N : nat) (m : list T) (x : T),
    length m = (M * N) -> returns (mat_add_assign_s M N m x) (fun r => length r = (M * N)).
Proof. intros. unfold mat_add_assign_s. sf ltac:(idtac; match goal with |- returns ?t _ => let h := head t in lazymatch h with | @mat_iter_map => eapply sf_mat_iter_map end end). Qed.
Lemma sf_mat_sub_assign_s : forall (M : nat) (N : nat) (m : list T) (x : T),
    length m = (M * N) -> returns (mat_sub_assign_s M N m x) (fun r => length r = (M * N)).
Proof. intros. unfold mat_sub_assign_s. sf ltac:(idtac; match goal with |- returns ?t _ => let h := head t in lazymatch h with | @mat_iter_map => eapply sf_mat_iter_map end end). Qed.
Lemma sf_mat_add : forall (M : nat) (N : nat) (m : list T) (o : list T),
    length m = (M * N) -> length o = (M * N) -> returns (mat_add M N m o) (fun r => length r = (M * N)).
Proof. intros. unfold mat_add. sf ltac:(idtac; match goal with |- returns ?t _ => let h := head t in lazymatch h with | @mat_add_assign => eapply sf_mat_add_assign end end). Qed.
Lemma sf_mat_sub : forall (M : nat) (N : nat) (m : list T) (o : list T),
    length m = (M * N) -> length o = (M * N) -> returns (mat_sub M N m o) (fun r => length r = (M * N)).
Proof. intros. unfold mat_sub. sf ltac:(idtac; match goal with |- returns ?t _ => let h := head t in lazymatch h with | @mat_sub_assign => eapply sf_mat_sub_assign end end). Qed.
Lemma sf_mat_mul_vec : forall (M : nat) (N : nat) (m : list T) (v : list T),
    length m = (M * N) -> length v = N -> returns (mat_mul_vec M N m v) (fun r => length r = M).
Proof. intros. unfold mat_mul_vec. sf ltac:(idtac; match goal with |- returns ?t _ => let h := head t in lazymatch h with | @vat => eapply sf_vat | @vset => eapply sf_vset | @mat_at => eapply sf_mat_at end end). Qed.
Lemma sf_mat_negate : forall (M : nat) (N : nat) (m : list T),
    length m = (M * N) -> returns (mat_negate M N m) (fun r => length r = (M * N)).
Proof. intros. unfold mat_negate. sf ltac:(idtac; match goal with |- returns ?t _ => let h := head t in lazymatch h with | @mat_default => eapply sf_mat_default | @mat_mul_assign_s => eapply sf_mat_mul_assign_s end end). Qed.
Lemma sf_mat_tensor_sq : forall (n : nat) (m : list T) (u : list T) (v : list T),
    length m = (n * n) -> length u = n -> length v = n -> returns (mat_tensor n n m u v) (fun r => length r = (n * n)).
Proof. intros. unfold mat_tensor. sf ltac:(idtac; match goal with |- returns ?t _ => let h := head t in lazymatch h with | @mat_put => eapply sf_mat_put end end). Qed.
Lemma sf_mat_tensor34 : forall (m : list T) (u : list T) (v : list T),
    length m = 16 -> length u = 3 -> length v = 3 -> returns (mat_tensor34 m u v) (fun r => length r = 16).
Proof. intros. unfold mat_tensor34. sf ltac:(idtac; match goal with |- returns ?t _ => let h := head t in lazymatch h with | @mat_put => eapply sf_mat_put end end). Qed.
Lemma sf_mat_transpose_to : forall (M : nat) (N : nat) (m : list T) (t : list T),
    length m = (M * N) -> length t = (N * M) -> returns (mat_transpose_to M N m t) (fun r => length r = (N * M)).
Proof. intros. unfold mat_transpose_to. sf ltac:(idtac; match goal with |- returns ?t _ => let h := head t in lazymatch h with | @mat_at => eapply sf_mat_at | @mat_put => eapply sf_mat_put end end). Qed.
Lemma sf_mat_transpose : forall (M : nat) (N : nat) (m : list T),
    length m = (M * N) -> returns (mat_transpose M N m) (fun r => length r = (N * M)).
Proof. intros. unfold mat_transpose. sf ltac:(idtac; match goal with |- returns ?t _ => let h := head t in lazymatch h with | @mat_default => eapply sf_mat_default | @mat_transpose_to => eapply sf_mat_transpose_to end end). Qed.
Lemma sf_mat_sym_cov : forall (M : nat) (N : nat) (m : list T) (cov : list T),
    length m = (M * N) -> length cov = (M * M) -> returns (mat_sym_cov M N m cov) (fun r => length r = (M * M)).
Proof. intros. unfold mat_sym_cov. sf ltac:(idtac; match goal with |- returns ?t _ => let h := head t in lazymatch h with | @mat_at => eapply sf_mat_at | @mat_put => eapply sf_mat_put end end). Qed.
Lemma sf_mat_get_column_into : forall (M : nat) (N : nat) (m : list T) (index : nat) (column : list T),
    length m = (M * N) -> index < N -> length column = M -> returns (mat_get_column_into M N m index column) (fun r => length r = M).
Proof. intros. unfold mat_get_column_into. sf ltac:(idtac; fail). Qed.
Lemma sf_mat_get_column : forall (M : nat) (N : nat) (m : list T) (index : nat),
    length m = (M * N) -> index < N -> returns (mat_get_column M N m index) (fun r => length r = M).
Proof. intros. unfold mat_get_column. sf ltac:(idtac; match goal with |- returns ?t _ => let h := head t in lazymatch h with | @mat_get_column_into => eapply sf_mat_get_column_into end end). Qed.
Lemma sf_mat_set_column : forall (M : nat) (N : nat) (m : list T) (index : nat) (column : list T),
    length m = (M * N) -> index < N -> length column = M -> returns (mat_set_column M N m index column) (fun r => length r = (M * N)).
Proof. intros. unfold mat_set_column. sf ltac:(idtac; fail). Qed.
Lemma sf_mat_get_row_into : forall (M : nat) (N : nat) (m : list T) (index : nat) (row : list T),
    length m = (M * N) -> index < M -> length row = N -> returns (mat_get_row_into M N m index row) (fun r => length r = N).
Proof. intros. unfold mat_get_row_into. sf ltac:(idtac; match goal with |- returns ?t _ => let h := head t in lazymatch h with | @vset => eapply sf_vset | @mat_at => eapply sf_mat_at end end). Qed.
Lemma sf_mat_get_row : forall (M : nat) (N : nat) (m : list T) (index : nat),
    length m = (M * N) -> index < M -> returns (mat_get_row M N m index) (fun r => length r = N).
Proof. intros. unfold mat_get_row. sf ltac:(idtac; match goal with |- returns ?t _ => let h := head t in lazymatch h with | @mat_get_row_into => eapply sf_mat_get_row_into end end). Qed.
Lemma sf_mat_set_row : forall (M : nat) (N : nat) (m : list T) (index : nat) (row : list T),
    length m = (M * N) -> index < M -> length row = N -> returns (mat_set_row M N m index row) (fun r => length r = (M * N)).
Proof. intros. unfold mat_set_row. sf ltac:(idtac; match goal with |- returns ?t _ => let h := head t in lazymatch h with | @vat => eapply sf_vat | @mat_put => eapply sf_mat_put end end). Qed.
Lemma sf_mat_get_sub : forall (M : nat) (N : nat) (O : nat) (P : nat) (m : list T) (result : list T) (ro : nat) (co : nat),
    length m = (M * N) -> length result = (O * P) -> O + ro <= M -> P + co <= N -> returns (mat_get_sub M N O P m result ro co) (fun r => length r = (O * P)).
Proof. intros. unfold mat_get_sub. sf ltac:(idtac; match goal with |- returns ?t _ => let h := head t in lazymatch h with | @mat_at => eapply sf_mat_at | @mat_fill_rc => eapply sf_mat_fill_rc end end). Qed.
Lemma sf_mat_sub_matrix : forall (M : nat) (N : nat) (O : nat) (P : nat) (m : list T) (ro : nat) (co : nat),
    length m = (M * N) -> O + ro <= M -> P + co <= N -> returns (mat_sub_matrix M N O P m ro co) (fun r => length r = (O * P)).
Proof. intros. unfold mat_sub_matrix. sf ltac:(idtac; match goal with |- returns ?t _ => let h := head t in lazymatch h with | @mat_default => eapply sf_mat_default | @mat_get_sub => eapply sf_mat_get_sub end end). Qed.
Lemma sf_mat_set_sub : forall (M : nat) (N : nat) (O : nat) (P : nat) (m : list T) (sub : list T) (ro : nat) (co : nat),
    length m = (M * N) -> length sub = (O * P) -> O + ro <= M -> P + co <= N -> returns (mat_set_sub M N O P m sub ro co) (fun r => length r = (M * N)).
Proof. intros. unfold mat_set_sub. sf ltac:(idtac; match goal with |- returns ?t _ => let h := head t in lazymatch h with | @mat_at => eapply sf_mat_at | @mat_put => eapply sf_mat_put end end). Qed.
Lemma sf_mat_direct_sum : forall (O : nat) (P : nat) (Q : nat) (R' : nat) (m : list T) (ul : list T) (lr : list T),
    length m = ((O + Q) * (P + R')) -> length ul = (O * P) -> length lr = (Q * R') -> returns (mat_direct_sum O P Q R' m ul lr) (fun r => length r = ((O + Q) * (P + R'))).
Proof. intros. unfold mat_direct_sum. sf ltac:(idtac; match goal with |- returns ?t _ => let h := head t in lazymatch h with | @mat_at => eapply sf_mat_at | @mat_put => eapply sf_mat_put | @mat_assign_value => eapply sf_mat_assign_value end end). Qed.
Lemma sf_mat_khatri_rao : forall (M : nat) (N : nat) (O : nat) (m : list T) (right : list T) (prod : list T),
    length m = (M * N) -> length right = (O * N) -> length prod = (M * O * N) -> returns (mat_khatri_rao M N O m right prod) (fun r => length r = (M * O * N)).
Proof. intros. unfold mat_khatri_rao. sf ltac:(idtac; match goal with |- returns ?t _ => let h := head t in lazymatch h with | @mat_at => eapply sf_mat_at | @mat_put => eapply sf_mat_put end end). Qed.
Lemma sf_mat_kronecker : forall (M : nat) (N : nat) (O : nat) (P : nat) (m : list T) (right : list T) (result : list T),
    length m = (M * N) -> length right = (O * P) -> length result = (M * O * (N * P)) -> returns (mat_kronecker M N O P m right result) (fun r => length r = (M * O * (N * P))).
Proof. intros. unfold mat_kronecker. sf ltac:(idtac; match goal with |- returns ?t _ => let h := head t in lazymatch h with | @mat_at => eapply sf_mat_at | @mat_put => eapply sf_mat_put end end). Qed.
Lemma sf_mat_diag : forall (R' : nat) (m : list T) (d : list T),
    length m = (R' * R') -> length d = R' -> returns (mat_diag R' m d) (fun r => length r = (R' * R')).
Proof. intros. unfold mat_diag. sf ltac:(idtac; match goal with |- returns ?t _ => let h := head t in lazymatch h with | @vat => eapply sf_vat | @mat_put => eapply sf_mat_put | @mat_zero => eapply sf_mat_zero end end). Qed.
Lemma sf_mat_frobenius : forall (M : nat) (N : nat) (m : list T),
    total_ops -> length m = (M * N) -> returns (mat_frobenius M N m) (fun _ => True).
Proof. intros. unfold mat_frobenius. sf ltac:(idtac; fail). Qed.
Lemma sf_mat_sum_elements : forall (M : nat) (N : nat) (m : list T),
    length m = (M * N) -> returns (mat_sum_elements M N m) (fun _ => True).
Proof. intros. unfold mat_sum_elements. sf ltac:(idtac; fail). Qed.
Lemma sf_mat_columnwise_sum : forall (M : nat) (N : nat) (m : list T) (out : list T),
    length m = (M * N) -> length out = N -> returns (mat_columnwise_sum M N m out) (fun r => length r = N).
Proof. intros. unfold mat_columnwise_sum. sf ltac:(idtac; match goal with |- returns ?t _ => let h := head t in lazymatch h with | @vset => eapply sf_vset | @mat_at => eapply sf_mat_at end end). Qed.
Lemma sf_mat_sum_rows : forall (M : nat) (N : nat) (m : list T) (other : list T),
    length m = (M * N) -> length other = (M / 2 * N) -> returns (mat_sum_rows M N m other) (fun r => length r = (M / 2 * N)).
Proof. intros. unfold mat_sum_rows. sf ltac:(idtac; match goal with |- returns ?t _ => let h := head t in lazymatch h with | @vec_add_assign => eapply sf_vec_add_assign | @mat_zero => eapply sf_mat_zero | @mat_get_row => eapply sf_mat_get_row | @mat_set_row => eapply sf_mat_set_row end end). Qed.
Lemma sf_mat_sum_columns : forall (M : nat) (N : nat) (m : list T) (other : list T),
    length m = (M * N) -> length other = (M * (N / 2)) -> returns (mat_sum_columns M N m other) (fun r => length r = (M * (N / 2))).
Proof. intros. unfold mat_sum_columns. sf ltac:(idtac; match goal with |- returns ?t _ => let h := head t in lazymatch h with | @vec_add_assign => eapply sf_vec_add_assign | @mat_zero => eapply sf_mat_zero | @mat_get_column => eapply sf_mat_get_column | @mat_set_column => eapply sf_mat_set_column end end). Qed.
Lemma sf_mat_get_min : forall (M : nat) (N : nat) (m : list T),
    length m = (M * N) -> returns (mat_get_min M N m) (fun _ => True).
Proof. intros. unfold mat_get_min. sf ltac:(idtac; fail). Qed.
Lemma sf_mat_get_max : forall (M : nat) (N : nat) (m : list T),
    length m = (M * N) -> returns (mat_get_max M N m) (fun _ => True).
Proof. intros. unfold mat_get_max. sf ltac:(idtac; fail). Qed.
Lemma sf_mat_get_abs_min : forall (M : nat) (N : nat) (m : list T),
    length m = (M * N) -> returns (mat_get_abs_min M N m) (fun _ => True).
Proof. intros. unfold mat_get_abs_min. sf ltac:(idtac; fail). Qed.
Lemma sf_mat_get_abs_max : forall (M : nat) (N : nat) (m : list T),
    length m = (M * N) -> returns (mat_get_abs_max M N m) (fun _ => True).
Proof. intros. unfold mat_get_abs_max. sf ltac:(idtac; fail). Qed.
Lemma sf_mat_nnz : forall (M : nat) (N : nat) (m : list T),
    length m = (M * N) -> returns (mat_nnz M N m) (fun _ => True).
Proof. intros. unfold mat_nnz. sf ltac:(idtac; fail). Qed.
Lemma sf_mat_nnz_thr : forall (M : nat) (N : nat) (m : list T) (thr : T),
    length m = (M * N) -> returns (mat_nnz_thr M N m thr) (fun _ => True).
Proof. intros. unfold mat_nnz_thr. sf ltac:(idtac; fail). Qed.
Lemma sf_mat_threshold : forall (M : nat) (N : nat) (m : list T) (thr : sref T),
    length m = (M * N) -> sref_of (M * N) thr -> returns (mat_threshold M N m thr) (fun r => length r = (M * N)).
Proof. intros. unfold mat_threshold. sf ltac:(idtac; fail). Qed.
Lemma sf_mat_set_random : forall (rnd : Z -> nat -> Z) (RAND_MAX : Z) (ofZ : Z -> T) (M : nat) (N : nat) (m : list T) (seed : Z) (st : rng),
    total_ops -> length m = (M * N) -> returns (mat_set_random rnd RAND_MAX ofZ M N m seed st) (fun r => length (fst r) = (M * N)).
Proof. intros. unfold mat_set_random. sf ltac:(idtac; match goal with |- returns ?t _ => let h := head t in lazymatch h with | @mat_put => eapply sf_mat_put end end). Qed.
Lemma sf_mat_convolve_sq : forall (n : nat) (k : nat) (m : list T) (kernel : list T),
    length m = (n * n) -> length kernel = (k * k) -> returns (mat_convolve n n k k m kernel) (fun r => length r = (n * n)).
Proof. intros. unfold mat_convolve. sf ltac:(idtac; match goal with |- returns ?t _ => let h := head t in lazymatch h with | @mat_at => eapply sf_mat_at | @mat_put => eapply sf_mat_put | @mat_default => eapply sf_mat_default | @mat_assign => eapply sf_mat_assign end end). Qed.
Lemma sf_mat_det1 : forall (m : list T),
    length m = 1 -> returns (mat_det1 m) (fun _ => True).
Proof. intros. unfold mat_det1. sf ltac:(idtac; fail). Qed.
Lemma sf_mat_det2 : forall (m : list T),
    length m = 4 -> returns (mat_det2 m) (fun _ => True).
Proof. intros. unfold mat_det2. sf ltac:(idtac; match goal with |- returns ?t _ => let h := head t in lazymatch h with | @mat_at => eapply sf_mat_at end end). Qed.
Lemma sf_mat_det3 : forall (m : list T),
    length m = 9 -> returns (mat_det3 m) (fun _ => True).
Proof. intros. unfold mat_det3. sf ltac:(idtac; match goal with |- returns ?t _ => let h := head t in lazymatch h with | @mat_at => eapply sf_mat_at end end). Qed.
Lemma sf_mat_det4 : forall (m : list T),
    length m = 16 -> returns (mat_det4 m) (fun _ => True).
Proof. intros. unfold mat_det4. sf ltac:(idtac; match goal with |- returns ?t _ => let h := head t in lazymatch h with | @mat_at => eapply sf_mat_at end end). Qed.
Lemma sf_mat_det : forall (n : nat) (m : list T),
    length m = (n * n) -> 1 <= n <= 4 -> returns (mat_det n m) (fun _ => True).
Proof. intros. unfold mat_det. sf ltac:(idtac; match goal with |- returns ?t _ => let h := head t in lazymatch h with | @mat_det1 => eapply sf_mat_det1 | @mat_det2 => eapply sf_mat_det2 | @mat_det3 => eapply sf_mat_det3 | @mat_det4 => eapply sf_mat_det4 end end). Qed.
Lemma sf_mat_get_minor : forall (n : nat) (m : list T) (minor : list T) (rcut : nat) (ccut : nat),
    length m = (n * n) -> length minor = ((n - 1) * (n - 1)) -> rcut < n -> ccut < n -> 2 <= n <= 5 -> returns (mat_get_minor n m minor rcut ccut) (fun r => length (snd r) = ((n - 1) * (n - 1))).
Proof. intros n m minor rcut ccut Hm Hmi Hr Hc Hn. unfold mat_get_minor. apply (returns_bind _ _ (fun s => length (fst s) = (n - 1) * (n - 1))). { eapply returns_impl; [apply (for_inv (fun i s => length (fst s) = (n - 1) * (n - 1) /\ (snd s <= 1 /\ (rcut < i -> snd s = 1)))); [lia|cbn; split; [exact Hmi|lia]|]|intros s [Hs _]; exact Hs]. intros i [mi ro] Hi (H1 & H2 & H3). cbn [fst snd] in *. destruct (i =? rcut) eqn:E; [apply Nat.eqb_eq in E; apply returns_ok; cbn; split; [exact H1|lia]|]. apply Nat.eqb_neq in E. apply (returns_bind _ _ (fun s => length (fst s) = (n - 1) * (n - 1))). { eapply returns_impl; [apply (for_inv (fun i s => length (fst s) = (n - 1) * (n - 1) /\ (snd s <= 1 /\ (ccut < i -> snd s = 1)))); [lia|cbn; split; [exact H1|lia]|]|intros s [Hs _]; exact Hs]. intros k [mk co] Hk (K1 & K2 & K3). cbn [fst snd] in *. destruct (k =? ccut) eqn:E'; [apply Nat.eqb_eq in E'; apply returns_ok; cbn; split; [exact K1|lia]|]. apply Nat.eqb_neq in E'. eapply returns_bind; [apply sf_mat_at; [exact Hm|lia|lia]|intros x _]. eapply returns_bind; [apply sf_mat_put; [exact K1|lia|lia]|intros mk' Hmk]. apply returns_ok. cbn. split; [exact Hmk|lia]. } intros [mk co] HK. apply returns_ok. cbn in *. split; [exact HK|lia]. } intros [mi ro] HS. cbn in HS. eapply returns_bind; [apply sf_mat_det; [exact HS|lia]|intros d _]. apply returns_ok. exact HS. Qed.
Lemma sf_mat_get_cofactors : forall (n : nat) (m : arg T) (cof : list T),
    arg_of (n * n) (n * n) m -> length cof = (n * n) -> 2 <= n <= 5 -> returns (mat_get_cofactors n m cof) (fun r => length r = (n * n)).
Proof. intros. unfold mat_get_cofactors. sf ltac:(idtac; match goal with |- returns ?t _ => let h := head t in lazymatch h with | @mat_put => eapply sf_mat_put | @mat_default => eapply sf_mat_default | @mat_get_minor => eapply sf_mat_get_minor end end). Qed.
Lemma sf_mat_get_adjugate : forall (n : nat) (m : arg T) (adj : list T),
    arg_of (n * n) (n * n) m -> length adj = (n * n) -> 2 <= n <= 5 -> returns (mat_get_adjugate n m adj) (fun r => length r = (n * n)).
Proof. intros. unfold mat_get_adjugate. sf ltac:(idtac; match goal with |- returns ?t _ => let h := head t in lazymatch h with | @mat_assign => eapply sf_mat_assign | @mat_transpose => eapply sf_mat_transpose | @mat_get_cofactors => eapply sf_mat_get_cofactors end end). Qed.
Lemma sf_mat_inverse2 : forall (m : arg T) (inv : list T) (tol : T),
    total_ops -> arg_of 4 4 m -> length inv = 4 -> returns (mat_inverse2 m inv tol) (fun r => length (snd r) = 4).
Proof. intros. unfold mat_inverse2. sf ltac:(idtac; match goal with |- returns ?t _ => let h := head t in lazymatch h with | @mat_mul_assign_s => eapply sf_mat_mul_assign_s | @mat_det2 => eapply sf_mat_det2 | @mat_get_adjugate => eapply sf_mat_get_adjugate end end). Qed.
Lemma sf_mat_cof3 : forall (m : arg T) (inv : list T) (r : nat) (c : nat) (a0 : nat) (a1 : nat) (b0 : nat) (b1 : nat) (c0 : nat) (c1 : nat) (d0 : nat) (d1 : nat),
    arg_of 9 9 m -> length inv = 9 -> r < 3 -> c < 3 -> a0 < 3 -> a1 < 3 -> b0 < 3 -> b1 < 3 -> c0 < 3 -> c1 < 3 -> d0 < 3 -> d1 < 3 -> returns (mat_cof3 m inv r c a0 a1 b0 b1 c0 c1 d0 d1) (fun r => length r = 9).
Proof. intros. unfold mat_cof3. sf ltac:(idtac; match goal with |- returns ?t _ => let h := head t in lazymatch h with | @mat_at => eapply sf_mat_at | @mat_put => eapply sf_mat_put end end). Qed.
Lemma sf_mat_inverse3 : forall (m : arg T) (inv : list T) (tol : T),
    total_ops -> arg_of 9 9 m -> length inv = 9 -> returns (mat_inverse3 m inv tol) (fun r => length (snd r) = 9).
Proof. intros. unfold mat_inverse3. sf ltac:(idtac; match goal with |- returns ?t _ => let h := head t in lazymatch h with | @mat_at => eapply sf_mat_at | @mat_put => eapply sf_mat_put | @mat_cof3 => eapply sf_mat_cof3 end end). Qed.
Lemma sf_mat_inverse4 : forall (m : list T) (inv : list T) (tol : T),
    total_ops -> length m = 16 -> length inv = 16 -> returns (mat_inverse4 m inv tol) (fun r => length (snd r) = 16).
Proof. intros. unfold mat_inverse4. sf ltac:(idtac; fail). Qed.
Lemma sf_mat_inverse : forall (n : nat) (m : list T) (inv : list T) (tol : T),
    total_ops -> length m = (n * n) -> length inv = (n * n) -> 2 <= n <= 4 -> returns (mat_inverse n m inv tol) (fun r => length (snd r) = (n * n)).
Proof. intros. unfold mat_inverse. sf ltac:(idtac; match goal with |- returns ?t _ => let h := head t in lazymatch h with | @mat_inverse2 => eapply sf_mat_inverse2 | @mat_inverse3 => eapply sf_mat_inverse3 | @mat_inverse4 => eapply sf_mat_inverse4 end end). Qed.
Lemma sf_mat_is_pd3 : forall (m : list T) (limit : T),
    length m = 9 -> returns (mat_is_pd3 m limit) (fun _ => True).
Proof. intros. unfold mat_is_pd3. sf ltac:(idtac; match goal with |- returns ?t _ => let h := head t in lazymatch h with | @mat_at => eapply sf_mat_at | @mat_default => eapply sf_mat_default | @mat_get_sub => eapply sf_mat_get_sub | @mat_det2 => eapply sf_mat_det2 | @mat_det3 => eapply sf_mat_det3 end end). Qed.
Lemma sf_mat_rotate : forall (m : list T) (angle : T) (axis : list T),
    length m = 16 -> length axis = 3 -> returns (mat_rotate m angle axis) (fun r => length r = 16).
Proof. intros. unfold mat_rotate. sf ltac:(idtac; fail). Qed.
Lemma sf_rot_pair : forall (i : nat) (j : nat) (cosine : T) (sine : T) (m : list T),
    i < length m -> j < length m -> returns (rot_pair i j cosine sine m) (fun r => length r = (length m)).
Proof. intros. unfold rot_pair. sf ltac:(idtac; fail). Qed.
Lemma sf_rot_pair_y : forall (i : nat) (j : nat) (cosine : T) (sine : T) (m : list T),
    i < length m -> j < length m -> returns (rot_pair_y i j cosine sine m) (fun r => length r = (length m)).
Proof. intros. unfold rot_pair_y. sf ltac:(idtac; fail). Qed.
Lemma sf_pre_pair : forall (i : nat) (j : nat) (cosine : T) (sine : T) (m : list T),
    i < length m -> j < length m -> returns (pre_pair i j cosine sine m) (fun r => length r = (length m)).
Proof. intros. unfold pre_pair. sf ltac:(idtac; fail). Qed.
Lemma sf_pre_pair_y : forall (i : nat) (j : nat) (cosine : T) (sine : T) (m : list T),
    i < length m -> j < length m -> returns (pre_pair_y i j cosine sine m) (fun r => length r = (length m)).
Proof. intros. unfold pre_pair_y. sf ltac:(idtac; fail). Qed.
Lemma sf_mat_rotate_x : forall (m : list T) (angle : T),
    length m = 16 -> returns (mat_rotate_x m angle) (fun r => length r = 16).
Proof. intros. unfold mat_rotate_x. sf ltac:(idtac; match goal with |- returns ?t _ => let h := head t in lazymatch h with | @rot_pair => eapply sf_rot_pair end end). Qed.
Lemma sf_mat_rotate_y : forall (m : list T) (angle : T),
    length m = 16 -> returns (mat_rotate_y m angle) (fun r => length r = 16).
Proof. intros. unfold mat_rotate_y. sf ltac:(idtac; match goal with |- returns ?t _ => let h := head t in lazymatch h with | @rot_pair_y => eapply sf_rot_pair_y end end). Qed.
Lemma sf_mat_rotate_z : forall (m : list T) (angle : T),
    length m = 16 -> returns (mat_rotate_z m angle) (fun r => length r = 16).
Proof. intros. unfold mat_rotate_z. sf ltac:(idtac; match goal with |- returns ?t _ => let h := head t in lazymatch h with | @rot_pair => eapply sf_rot_pair end end). Qed.
Lemma sf_mat_pre_rotate_x : forall (m : list T) (angle : T),
    length m = 16 -> returns (mat_pre_rotate_x m angle) (fun r => length r = 16).
Proof. intros. unfold mat_pre_rotate_x. sf ltac:(idtac; match goal with |- returns ?t _ => let h := head t in lazymatch h with | @pre_pair => eapply sf_pre_pair end end). Qed.
Lemma sf_mat_pre_rotate_y : forall (m : list T) (angle : T),
    length m = 16 -> returns (mat_pre_rotate_y m angle) (fun r => length r = 16).
Proof. intros. unfold mat_pre_rotate_y. sf ltac:(idtac; match goal with |- returns ?t _ => let h := head t in lazymatch h with | @pre_pair_y => eapply sf_pre_pair_y end end). Qed.
Lemma sf_mat_pre_rotate_z : forall (m : list T) (angle : T),
    length m = 16 -> returns (mat_pre_rotate_z m angle) (fun r => length r = 16).
Proof. intros. unfold mat_pre_rotate_z. sf ltac:(idtac; match goal with |- returns ?t _ => let h := head t in lazymatch h with | @pre_pair => eapply sf_pre_pair end end). Qed.
Lemma sf_mat_scale : forall (m : list T) (v : list T),
    length m = 16 -> length v = 3 -> returns (mat_scale m v) (fun r => length r = 16).
Proof. intros. unfold mat_scale. sf ltac:(idtac; fail). Qed.
Lemma sf_mat_scale_translation : forall (m : list T) (v : list T),
    length m = 16 -> length v = 3 -> returns (mat_scale_translation m v) (fun r => length r = 16).
Proof. intros. unfold mat_scale_translation. sf ltac:(idtac; fail). Qed.
Lemma sf_mat_set_translation : forall (m : list T) (t : list T),
    length m = 16 -> length t = 3 -> returns (mat_set_translation m t) (fun r => length r = 16).
Proof. intros. unfold mat_set_translation. sf ltac:(idtac; fail). Qed.
Lemma sf_mat_get_translation : forall (M : nat) (N : nat) (m : list T),
    length m = (M * N) -> N - 1 <= M -> 0 < N -> returns (mat_get_translation M N m) (fun r => length r = (N - 1)).
Proof. intros. unfold mat_get_translation. sf ltac:(idtac; fail). Qed.
Lemma sf_mat_x : forall (m : list T),
    length m = 16 -> returns (mat_x m) (fun _ => True).
Proof. intros. unfold mat_x. sf ltac:(idtac; fail). Qed.
Lemma sf_mat_y : forall (m : list T),
    length m = 16 -> returns (mat_y m) (fun _ => True).
Proof. intros. unfold mat_y. sf ltac:(idtac; fail). Qed.
Lemma sf_mat_z : forall (m : list T),
    length m = 16 -> returns (mat_z m) (fun _ => True).
Proof. intros. unfold mat_z. sf ltac:(idtac; fail). Qed.
Lemma sf_mat_mul_hom : forall (M : nat) (N : nat) (O : nat) (m : list T) (v : list T),
    total_ops -> length m = (M * N) -> length v = O -> N <= M + 1 -> N = O + 1 -> returns (mat_mul_hom M N O m v) (fun r => length r = O).
Proof. intros. unfold mat_mul_hom. sf ltac:(idtac; match goal with |- returns ?t _ => let h := head t in lazymatch h with | @vat => eapply sf_vat | @vset => eapply sf_vset | @mat_at => eapply sf_mat_at end end). Qed.
Lemma sf_util_create_translation : forall (t : list T),
    length t = 3 -> returns (util_create_translation t) (fun r => length r = 16).
Proof. intros. unfold util_create_translation. sf ltac:(idtac; match goal with |- returns ?t _ => let h := head t in lazymatch h with | @mat_default => eapply sf_mat_default | @mat_identity => eapply sf_mat_identity | @mat_set_translation => eapply sf_mat_set_translation end end). Qed.
Lemma sf_util_apply_translation : forall (m : list T) (t0 : T) (t1 : T) (t2 : T),
    length m = 16 -> returns (util_apply_translation m t0 t1 t2) (fun r => length r = 16).
Proof. intros. unfold util_apply_translation. sf ltac:(idtac; match goal with |- returns ?t _ => let h := head t in lazymatch h with | @mat_mul_assign => eapply sf_mat_mul_assign | @util_create_translation => eapply sf_util_create_translation end end). Qed.
Lemma sf_util_create_rotation : forall (angle : T) (axis : list T),
    length axis = 3 -> returns (util_create_rotation angle axis) (fun r => length r = 16).
Proof. intros. unfold util_create_rotation. sf ltac:(idtac; match goal with |- returns ?t _ => let h := head t in lazymatch h with | @mat_default => eapply sf_mat_default | @mat_identity => eapply sf_mat_identity | @mat_rotate => eapply sf_mat_rotate end end). Qed.
Lemma sf_util_apply_rotation : forall (m : list T) (angle : T) (t0 : T) (t1 : T) (t2 : T),
    length m = 16 -> returns (util_apply_rotation m angle t0 t1 t2) (fun r => length r = 16).
Proof. intros. unfold util_apply_rotation. sf ltac:(idtac; match goal with |- returns ?t _ => let h := head t in lazymatch h with | @mat_mul_assign => eapply sf_mat_mul_assign | @util_create_rotation => eapply sf_util_create_rotation end end). Qed.
Lemma sf_util_create_scaling : forall (v : list T),
    length v = 3 -> returns (util_create_scaling v) (fun r => length r = 16).
Proof. intros. unfold util_create_scaling. sf ltac:(idtac; match goal with |- returns ?t _ => let h := head t in lazymatch h with | @mat_default => eapply sf_mat_default | @mat_identity => eapply sf_mat_identity | @mat_scale => eapply sf_mat_scale end end). Qed.
Lemma sf_util_create_scaling_s : forall (x : T),
    returns (util_create_scaling_s x) (fun r => length r = 16).
Proof. intros. unfold util_create_scaling_s. sf ltac:(idtac; match goal with |- returns ?t _ => let h := head t in lazymatch h with | @util_create_scaling => eapply sf_util_create_scaling end end). Qed.
Lemma sf_fun_eq_inv_rows : forall (M : nat) (N : nat) (m0 : list T) (m1 : list T),
    length m0 = (M * N) -> length m1 = (M * N) -> returns (fun_eq_inv_rows M N m0 m1) (fun _ => True).
Proof. intros. unfold fun_eq_inv_rows. sf ltac:(idtac; match goal with |- returns ?t _ => let h := head t in lazymatch h with | @vec_neg => eapply sf_vec_neg | @mat_get_row => eapply sf_mat_get_row end end). Qed.
Lemma sf_fun_eq_inv_rows_tol : forall (M : nat) (N : nat) (m0 : list T) (m1 : list T) (tol : T),
    length m0 = (M * N) -> length m1 = (M * N) -> returns (fun_eq_inv_rows_tol M N m0 m1 tol) (fun _ => True).
Proof. intros. unfold fun_eq_inv_rows_tol. sf ltac:(idtac; match goal with |- returns ?t _ => let h := head t in lazymatch h with | @vec_neg => eapply sf_vec_neg | @vec_equals => eapply sf_vec_equals | @mat_get_row => eapply sf_mat_get_row end end). Qed.
Lemma sf_fun_eq_inv_cols : forall (M : nat) (N : nat) (m0 : list T) (m1 : list T),
    length m0 = (M * N) -> length m1 = (M * N) -> returns (fun_eq_inv_cols M N m0 m1) (fun _ => True).
Proof. intros. unfold fun_eq_inv_cols. sf ltac:(idtac; match goal with |- returns ?t _ => let h := head t in lazymatch h with | @vec_neg => eapply sf_vec_neg | @mat_get_column => eapply sf_mat_get_column end end). Qed.
Lemma sf_fun_eq_inv_cols_tol : forall (M : nat) (N : nat) (m0 : list T) (m1 : list T) (tol : T),
    length m0 = (M * N) -> length m1 = (M * N) -> returns (fun_eq_inv_cols_tol M N m0 m1 tol) (fun _ => True).
Proof. intros. unfold fun_eq_inv_cols_tol. sf ltac:(idtac; match goal with |- returns ?t _ => let h := head t in lazymatch h with | @vec_neg => eapply sf_vec_neg | @vec_equals => eapply sf_vec_equals | @mat_get_column => eapply sf_mat_get_column end end). Qed.
Lemma sf_traits_r_sq : forall (n : nat) (m : list T) (row : nat) (col : nat),
    length m = (n * n) -> row < n -> col < n -> returns (traits_r n n m row col) (fun _ => True).
Proof. intros. unfold traits_r. sf ltac:(idtac; match goal with |- returns ?t _ => let h := head t in lazymatch h with | @mat_at => eapply sf_mat_at end end). Qed.
Lemma sf_traits_w_sq : forall (n : nat) (m : list T) (row : nat) (col : nat) (x : T),
    length m = (n * n) -> row < n -> col < n -> returns (traits_w n n m row col x) (fun r => length r = (n * n)).
Proof. intros. unfold traits_w. sf ltac:(idtac; match goal with |- returns ?t _ => let h := head t in lazymatch h with | @mat_put => eapply sf_mat_put end end). Qed.
Lemma sf_vtraits_r : forall (v : list T) (i : nat),
    i < (length v) -> returns (vtraits_r v i) (fun _ => True).
Proof. intros. unfold vtraits_r. sf ltac:(idtac; fail). Qed.
Lemma sf_vtraits_w : forall (v : list T) (i : nat) (x : T),
    i < (length v) -> returns (vtraits_w v i x) (fun r => length r = (length v)).
Proof. intros. unfold vtraits_w. sf ltac:(idtac; fail). Qed.
Lemma sf_mat_transpose_to_self : forall (n : nat) (m : list T),
    length m = (n * n) -> returns (mat_transpose_to_self n m) (fun r => length r = (n * n)).
Proof. intros. unfold mat_transpose_to_self. sf ltac:(idtac; match goal with |- returns ?t _ => let h := head t in lazymatch h with | @mat_at => eapply sf_mat_at | @mat_put => eapply sf_mat_put end end). Qed.
Lemma sf_mat_sym_cov_self : forall (n : nat) (m : list T),
    length m = (n * n) -> returns (mat_sym_cov_self n m) (fun r => length r = (n * n)).
Proof. intros. unfold mat_sym_cov_self. sf ltac:(idtac; match goal with |- returns ?t _ => let h := head t in lazymatch h with | @mat_at => eapply sf_mat_at | @mat_put => eapply sf_mat_put end end). Qed.
Lemma sf_inv4_line : forall (m : arg T) (inv : list T) (k : nat) (p : nat) (q : nat) (r : nat) (x : T) (y : T) (z : T) (plus : bool),
    arg_of 16 16 m -> length inv = 16 -> k < 16 -> p < 16 -> q < 16 -> r < 16 -> returns (inv4_line m inv k p q r x y z plus) (fun r => length r = 16).
Proof. intros. unfold inv4_line. sf ltac:(idtac; fail). Qed.
Lemma sf_inv4_det : forall (v : list T) (p : nat) (q : nat) (r : nat) (s : nat),
    length v = 16 -> p < 16 -> q < 16 -> r < 16 -> s < 16 -> returns (inv4_det v p q r s) (fun _ => True).
Proof. intros. unfold inv4_det. sf ltac:(idtac; fail). Qed.
Lemma sf_mat_inverse4_arg : forall (m : arg T) (inv : list T) (tol : T),
    total_ops -> arg_of 16 16 m -> length inv = 16 -> returns (mat_inverse4_arg m inv tol) (fun r => length (snd r) = 16).
Proof. intros. unfold mat_inverse4_arg. sf ltac:(idtac; match goal with |- returns ?t _ => let h := head t in lazymatch h with | @inv4_line => eapply sf_inv4_line | @inv4_det => eapply sf_inv4_det end end). Qed.
Lemma sf_mat_inverse_self : forall (n : nat) (m : list T) (tol : T),
    total_ops -> length m = (n * n) -> 2 <= n <= 4 -> returns (mat_inverse_self n m tol) (fun r => length (snd r) = (n * n)).
Proof. intros. unfold mat_inverse_self. sf ltac:(idtac; match goal with |- returns ?t _ => let h := head t in lazymatch h with | @mat_inverse2 => eapply sf_mat_inverse2 | @mat_inverse3 => eapply sf_mat_inverse3 | @mat_inverse4_arg => eapply sf_mat_inverse4_arg end end). Qed.
Lemma sf_vec_clamp_ref : forall (M : nat) (v : list T) (mn : sref T) (mx : sref T),
    length v = M -> sref_of M mn -> sref_of M mx -> returns (vec_clamp_ref M v mn mx) (fun r => length r = M).
Proof. intros. unfold vec_clamp_ref. sf ltac:(idtac; fail). Qed.
Lemma sf_q_default : returns (q_default) (fun r => length r = 4).
Proof. intros. unfold q_default. sf ltac:(idtac; fail). Qed.
Lemma sf_q_of_vec_w : forall (xyz : list T) (w : T),
    length xyz = 3 -> returns (q_of_vec_w xyz w) (fun r => length r = 4).
Proof. intros. unfold q_of_vec_w. sf ltac:(idtac; match goal with |- returns ?t _ => let h := head t in lazymatch h with | @vec_set_last => eapply sf_vec_set_last end end). Qed.
Lemma sf_q_of_vec : forall (xyz : list T),
    length xyz = 3 -> returns (q_of_vec xyz) (fun r => length r = 4).
Proof. intros. unfold q_of_vec. sf ltac:(idtac; match goal with |- returns ?t _ => let h := head t in lazymatch h with | @q_of_vec_w => eapply sf_q_of_vec_w end end). Qed.
Lemma sf_q_set_vec : forall (q : list T) (xyz : list T) (w : T),
    length q = 4 -> length xyz = 3 -> returns (q_set_vec q xyz w) (fun r => length r = 4).
Proof. intros. unfold q_set_vec. sf ltac:(idtac; fail). Qed.
Lemma sf_q_assign : forall (q : list T) (o : arg T),
    length q = 4 -> arg_of 4 4 o -> returns (q_assign q o) (fun r => length r = 4).
Proof. intros. unfold q_assign. sf ltac:(idtac; fail). Qed.
Lemma sf_q_zero : forall (q : list T),
    length q = 4 -> returns (q_zero q) (fun r => length r = 4).
Proof. intros. unfold q_zero. sf ltac:(idtac; match goal with |- returns ?t _ => let h := head t in lazymatch h with | @q_assign => eapply sf_q_assign end end). Qed.
Lemma sf_q_identity : forall (q : list T),
    length q = 4 -> returns (q_identity q) (fun r => length r = 4).
Proof. intros. unfold q_identity. sf ltac:(idtac; match goal with |- returns ?t _ => let h := head t in lazymatch h with | @q_assign => eapply sf_q_assign end end). Qed.
Lemma sf_q_eq_s : forall (q : list T) (a : T),
    length q = 4 -> returns (q_eq_s q a) (fun _ => True).
Proof. intros. unfold q_eq_s. sf ltac:(idtac; fail). Qed.
Lemma sf_q_neq_s : forall (q : list T) (a : T),
    length q = 4 -> returns (q_neq_s q a) (fun _ => True).
Proof. intros. unfold q_neq_s. sf ltac:(idtac; fail). Qed.
Lemma sf_q_eq : forall (q : list T) (p : list T),
    length q = 4 -> length p = 4 -> returns (q_eq q p) (fun _ => True).
Proof. intros. unfold q_eq. sf ltac:(idtac; fail). Qed.
Lemma sf_q_neq : forall (q : list T) (p : list T),
    length q = 4 -> length p = 4 -> returns (q_neq q p) (fun _ => True).
Proof. intros. unfold q_neq. sf ltac:(idtac; match goal with |- returns ?t _ => let h := head t in lazymatch h with | @q_eq => eapply sf_q_eq end end). Qed.
Lemma sf_q_is_akin : forall (q : list T) (p : list T) (delta : T),
    length q = 4 -> length p = 4 -> returns (q_is_akin q p delta) (fun _ => True).
Proof. intros. unfold q_is_akin. sf ltac:(idtac; fail). Qed.
Lemma sf_q_conjugate : forall (q : list T),
    length q = 4 -> returns (q_conjugate q) (fun r => length r = 4).
Proof. intros. unfold q_conjugate. sf ltac:(idtac; fail). Qed.
Lemma sf_q_get_conjugate : forall (q : list T),
    length q = 4 -> returns (q_get_conjugate q) (fun r => length r = 4).
Proof. intros. unfold q_get_conjugate. sf ltac:(idtac; fail). Qed.
Lemma sf_q_squared_abs : forall (q : list T),
    length q = 4 -> returns (q_squared_abs q) (fun _ => True).
Proof. intros. unfold q_squared_abs. sf ltac:(idtac; fail). Qed.
Lemma sf_q_abs : forall (q : list T),
    total_ops -> length q = 4 -> returns (q_abs q) (fun _ => True).
Proof. intros. unfold q_abs. sf ltac:(idtac; match goal with |- returns ?t _ => let h := head t in lazymatch h with | @q_squared_abs => eapply sf_q_squared_abs end end). Qed.
Lemma sf_q_mul_s : forall (q : list T) (a : T),
    length q = 4 -> returns (q_mul_s q a) (fun r => length r = 4).
Proof. intros. unfold q_mul_s. sf ltac:(idtac; fail). Qed.
Lemma sf_q_mul_assign_s : forall (q : list T) (a : T),
    length q = 4 -> returns (q_mul_assign_s q a) (fun r => length r = 4).
Proof. intros. unfold q_mul_assign_s. sf ltac:(idtac; fail). Qed.
Lemma sf_q_div_s : forall (q : list T) (a : T),
    total_ops -> length q = 4 -> seqb a szero = false -> returns (q_div_s q a) (fun r => length r = 4).
Proof. intros. unfold q_div_s. sf ltac:(idtac; fail). Qed.
Lemma sf_q_div_assign_s : forall (q : list T) (a : T),
    total_ops -> length q = 4 -> seqb a szero = false -> returns (q_div_assign_s q a) (fun r => length r = 4).
Proof. intros. unfold q_div_assign_s. sf ltac:(idtac; match goal with |- returns ?t _ => let h := head t in lazymatch h with | @q_mul_assign_s => eapply sf_q_mul_assign_s end end). Qed.
Lemma sf_q_inverse : forall (q : list T),
    total_ops -> length q = 4 -> returns (q_inverse q) (fun r => length r = 4).
Proof. intros. unfold q_inverse. sf ltac:(idtac; match goal with |- returns ?t _ => let h := head t in lazymatch h with | @q_conjugate => eapply sf_q_conjugate | @q_squared_abs => eapply sf_q_squared_abs | @q_mul_s => eapply sf_q_mul_s end end). Qed.
Lemma sf_q_normalize : forall (q : list T),
    total_ops -> length q = 4 -> returns (q_normalize q) (fun r => length (snd r) = 4).
Proof. intros. unfold q_normalize. sf ltac:(idtac; match goal with |- returns ?t _ => let h := head t in lazymatch h with | @q_abs => eapply sf_q_abs | @q_mul_assign_s => eapply sf_q_mul_assign_s end end). Qed.
Lemma sf_q_get_normalized : forall (q : list T),
    total_ops -> length q = 4 -> returns (q_get_normalized q) (fun r => length r = 4).
Proof. intros. unfold q_get_normalized. sf ltac:(idtac; match goal with |- returns ?t _ => let h := head t in lazymatch h with | @q_normalize => eapply sf_q_normalize end end). Qed.
Lemma sf_q_add : forall (q : list T) (p : list T),
    length q = 4 -> length p = 4 -> returns (q_add q p) (fun r => length r = 4).
Proof. intros. unfold q_add. sf ltac:(idtac; fail). Qed.
Lemma sf_q_sub : forall (q : list T) (p : list T),
    length q = 4 -> length p = 4 -> returns (q_sub q p) (fun r => length r = 4).
Proof. intros. unfold q_sub. sf ltac:(idtac; fail). Qed.
Lemma sf_q_add_assign : forall (q : list T) (p : arg T),
    length q = 4 -> arg_of 4 4 p -> returns (q_add_assign q p) (fun r => length r = 4).
Proof. intros. unfold q_add_assign. sf ltac:(idtac; fail). Qed.
Lemma sf_q_sub_assign : forall (q : list T) (p : arg T),
    length q = 4 -> arg_of 4 4 p -> returns (q_sub_assign q p) (fun r => length r = 4).
Proof. intros. unfold q_sub_assign. sf ltac:(idtac; fail). Qed.
Lemma sf_q_neg : forall (q : list T),
    length q = 4 -> returns (q_neg q) (fun r => length r = 4).
Proof. intros. unfold q_neg. sf ltac:(idtac; fail). Qed.
Lemma sf_q_mul_assign : forall (q : list T) (o : arg T),
    length q = 4 -> arg_of 4 4 o -> returns (q_mul_assign q o) (fun r => length r = 4).
Proof. intros. unfold q_mul_assign. sf ltac:(idtac; fail). Qed.
Lemma sf_q_mul : forall (q : list T) (p : list T),
    length q = 4 -> length p = 4 -> returns (q_mul q p) (fun r => length r = 4).
Proof. intros. unfold q_mul. sf ltac:(idtac; match goal with |- returns ?t _ => let h := head t in lazymatch h with | @q_mul_assign => eapply sf_q_mul_assign end end). Qed.
Lemma sf_q_add_vec : forall (q : list T) (a : list T),
    length q = 4 -> length a = 3 -> returns (q_add_vec q a) (fun r => length r = 4).
Proof. intros. unfold q_add_vec. sf ltac:(idtac; fail). Qed.
Lemma sf_q_sub_vec : forall (q : list T) (a : list T),
    length q = 4 -> length a = 3 -> returns (q_sub_vec q a) (fun r => length r = 4).
Proof. intros. unfold q_sub_vec. sf ltac:(idtac; fail). Qed.
Lemma sf_q_mul_vec : forall (q : list T) (a : list T),
    length q = 4 -> length a = 3 -> returns (q_mul_vec q a) (fun r => length r = 4).
Proof. intros. unfold q_mul_vec. sf ltac:(idtac; fail). Qed.
Lemma sf_q_add_assign_vec : forall (q : list T) (a : list T),
    length q = 4 -> length a = 3 -> returns (q_add_assign_vec q a) (fun r => length r = 4).
Proof. intros. unfold q_add_assign_vec. sf ltac:(idtac; fail). Qed.
Lemma sf_q_sub_assign_vec : forall (q : list T) (a : list T),
    length q = 4 -> length a = 3 -> returns (q_sub_assign_vec q a) (fun r => length r = 4).
Proof. intros. unfold q_sub_assign_vec. sf ltac:(idtac; fail). Qed.
Lemma sf_q_mul_assign_vec : forall (q : list T) (a : list T),
    length q = 4 -> length a = 3 -> returns (q_mul_assign_vec q a) (fun r => length r = 4).
Proof. intros. unfold q_mul_assign_vec. sf ltac:(idtac; fail). Qed.
Lemma sf_q_cross : forall (q : list T) (p : list T),
    length q = 4 -> length p = 4 -> returns (q_cross q p) (fun r => length r = 3).
Proof. intros. unfold q_cross. sf ltac:(idtac; fail). Qed.
Lemma sf_q_dot : forall (q : list T) (p : list T),
    length q = 4 -> length p = 4 -> returns (q_dot q p) (fun _ => True).
Proof. intros. unfold q_dot. sf ltac:(idtac; fail). Qed.
Lemma sf_q_get_rotation_matrix_into : forall (D : nat) (q : list T) (m : list T),
    length q = 4 -> length m = (D * D) -> 3 <= D -> returns (q_get_rotation_matrix_into D q m) (fun r => length r = (D * D)).
Proof. intros. unfold q_get_rotation_matrix_into. sf ltac:(idtac; match goal with |- returns ?t _ => let h := head t in lazymatch h with | @mat_put => eapply sf_mat_put end end). Qed.
Lemma sf_q_get_rotation_matrix : forall (q : list T),
    length q = 4 -> returns (q_get_rotation_matrix q) (fun r => length r = 9).
Proof. intros. unfold q_get_rotation_matrix. sf ltac:(idtac; match goal with |- returns ?t _ => let h := head t in lazymatch h with | @mat_default => eapply sf_mat_default | @q_get_rotation_matrix_into => eapply sf_q_get_rotation_matrix_into end end). Qed.
Lemma sf_q_set_matrix : forall (D : nat) (q : list T) (m : list T),
    total_ops -> length q = 4 -> length m = (D * D) -> 3 <= D -> returns (q_set_matrix D q m) (fun r => length r = 4).
Proof. intros. unfold q_set_matrix. sf ltac:(idtac; match goal with |- returns ?t _ => let h := head t in lazymatch h with | @vec_find_max_index => eapply sf_vec_find_max_index | @mat_at => eapply sf_mat_at end end). Qed.
Lemma sf_q_slerp : forall (a : T) (p : list T) (q : list T) (epsilon : T),
    total_ops -> length p = 4 -> length q = 4 -> returns (q_slerp a p q epsilon) (fun r => length r = 4).
Proof. intros. unfold q_slerp. cbv zeta. eapply returns_bind; [apply sf_q_get_normalized; assumption|intros px Hp]. eapply returns_bind; [apply sf_q_get_normalized; assumption|intros qx Hq]. eapply returns_bind; [apply sf_q_dot; assumption|intros cs _]. apply (returns_bind _ _ (fun r => length (snd r) = 4)). { destruct (sltb cs szero); [eapply returns_bind; [apply sf_q_neg; assumption|intros r Hr; apply returns_ok; exact Hr]|apply returns_ok; exact Hq]. } sf ltac:(idtac; match goal with |- returns ?t _ => let h := head t in lazymatch h with | @q_mul_assign_s => eapply sf_q_mul_assign_s | @q_add_assign => eapply sf_q_add_assign | @q_normalize => eapply sf_q_normalize end end). Qed.
Lemma sf_q_normal4 : forall (q : list T) (aa : list T) (bb : list T) (cc : list T) (dd : list T),
    total_ops -> length q = 4 -> length aa = 4 -> length bb = 4 -> length cc = 4 -> length dd = 4 -> returns (q_normal4 q aa bb cc dd) (fun r => length r = 4).
Proof. intros. unfold q_normal4. sf ltac:(idtac; match goal with |- returns ?t _ => let h := head t in lazymatch h with | @q_normalize => eapply sf_q_normalize | @q_sub => eapply sf_q_sub | @q_cross => eapply sf_q_cross end end). Qed.
Lemma sf_q_normal3 : forall (q : list T) (aa : list T) (bb : list T) (cc : list T),
    total_ops -> length q = 4 -> length aa = 4 -> length bb = 4 -> length cc = 4 -> returns (q_normal3 q aa bb cc) (fun r => length r = 4).
Proof. intros. unfold q_normal3. sf ltac:(idtac; match goal with |- returns ?t _ => let h := head t in lazymatch h with | @q_default => eapply sf_q_default | @q_normal4 => eapply sf_q_normal4 end end). Qed.
Lemma sf_box_default : returns (box_default) two3.
Proof. intros. unfold box_default. sf ltac:(idtac; match goal with |- returns ?t _ => let h := head t in lazymatch h with | @vec_ctor_fill => eapply sf_vec_ctor_fill end end). Qed.
Lemma sf_box_make : forall (pMin : list T) (pMax : list T),
    length pMin = 3 -> length pMax = 3 -> returns (box_make pMin pMax) two3.
Proof. intros. unfold box_make. sf ltac:(idtac; fail). Qed.
Lemma sf_box_ctor_center : forall (cx : T) (cy : T) (cz : T) (size : T),
    returns (box_ctor_center cx cy cz size) two3.
Proof. intros. unfold box_ctor_center. sf ltac:(idtac; match goal with |- returns ?t _ => let h := head t in lazymatch h with | @vec_set3 => eapply sf_vec_set3 | @vec_add_assign_s => eapply sf_vec_add_assign_s | @vec_sub_assign_s => eapply sf_vec_sub_assign_s | @vec_assign => eapply sf_vec_assign end end). Qed.
Lemma sf_box_isIn : forall (b : list T * list T) (pos : list T),
    two3 b -> length pos = 3 -> returns (box_isIn b pos) (fun _ => True).
Proof. intros. unfold box_isIn. sf ltac:(idtac; fail). Qed.
Lemma sf_box_isIn2d : forall (b : list T * list T) (pos : list T),
    two3 b -> length pos = 2 -> returns (box_isIn2d b pos) (fun _ => True).
Proof. intros. unfold box_isIn2d. sf ltac:(idtac; fail). Qed.
Lemma sf_box_set : forall (b : list T * list T) (pMin : list T) (pMax : list T),
    two3 b -> length pMin = 3 -> length pMax = 3 -> returns (box_set b pMin pMax) two3.
Proof. intros. unfold box_set. sf ltac:(idtac; match goal with |- returns ?t _ => let h := head t in lazymatch h with | @vec_assign => eapply sf_vec_assign end end). Qed.
Lemma sf_box_set_center : forall (b : list T * list T) (cx : T) (cy : T) (cz : T) (size : T),
    two3 b -> returns (box_set_center b cx cy cz size) two3.
Proof. intros. unfold box_set_center. sf ltac:(idtac; match goal with |- returns ?t _ => let h := head t in lazymatch h with | @vec_set3 => eapply sf_vec_set3 | @vec_add_s => eapply sf_vec_add_s | @vec_sub_s => eapply sf_vec_sub_s | @vec_assign => eapply sf_vec_assign end end). Qed.
Lemma sf_box_setMin : forall (b : list T * list T) (pMin : list T),
    two3 b -> length pMin = 3 -> returns (box_setMin b pMin) two3.
Proof. intros. unfold box_setMin. sf ltac:(idtac; match goal with |- returns ?t _ => let h := head t in lazymatch h with | @vec_assign => eapply sf_vec_assign end end). Qed.
Lemma sf_box_setMax : forall (b : list T * list T) (pMax : list T),
    two3 b -> length pMax = 3 -> returns (box_setMax b pMax) two3.
Proof. intros. unfold box_setMax. sf ltac:(idtac; match goal with |- returns ?t _ => let h := head t in lazymatch h with | @vec_assign => eapply sf_vec_assign end end). Qed.
Lemma sf_box_mul_assign : forall (b : list T * list T) (x : T),
    two3 b -> returns (box_mul_assign b x) two3.
Proof. intros. unfold box_mul_assign. sf ltac:(idtac; match goal with |- returns ?t _ => let h := head t in lazymatch h with | @vec_mul_assign_s => eapply sf_vec_mul_assign_s end end). Qed.
Lemma sf_box_div_assign : forall (b : list T * list T) (x : T),
    total_ops -> two3 b -> returns (box_div_assign b x) two3.
Proof. intros. unfold box_div_assign. sf ltac:(idtac; match goal with |- returns ?t _ => let h := head t in lazymatch h with | @vec_div_assign_s => eapply sf_vec_div_assign_s end end). Qed.
Lemma sf_box_add_assign : forall (b : list T * list T) (x : T),
    two3 b -> returns (box_add_assign b x) two3.
Proof. intros. unfold box_add_assign. sf ltac:(idtac; match goal with |- returns ?t _ => let h := head t in lazymatch h with | @vec_add_assign_s => eapply sf_vec_add_assign_s end end). Qed.
Lemma sf_box_sub_assign : forall (b : list T * list T) (x : T),
    two3 b -> returns (box_sub_assign b x) two3.
Proof. intros. unfold box_sub_assign. sf ltac:(idtac; match goal with |- returns ?t _ => let h := head t in lazymatch h with | @vec_sub_assign_s => eapply sf_vec_sub_assign_s end end). Qed.
Lemma sf_box_mul : forall (b : list T * list T) (x : T),
    two3 b -> returns (box_mul b x) two3.
Proof. intros. unfold box_mul. sf ltac:(idtac; match goal with |- returns ?t _ => let h := head t in lazymatch h with | @box_mul_assign => eapply sf_box_mul_assign end end). Qed.
Lemma sf_box_div : forall (b : list T * list T) (x : T),
    total_ops -> two3 b -> returns (box_div b x) two3.
Proof. intros. unfold box_div. sf ltac:(idtac; match goal with |- returns ?t _ => let h := head t in lazymatch h with | @box_div_assign => eapply sf_box_div_assign end end). Qed.
Lemma sf_box_add : forall (b : list T * list T) (x : T),
    two3 b -> returns (box_add b x) two3.
Proof. intros. unfold box_add. sf ltac:(idtac; match goal with |- returns ?t _ => let h := head t in lazymatch h with | @box_add_assign => eapply sf_box_add_assign end end). Qed.
Lemma sf_box_sub : forall (b : list T * list T) (x : T),
    two3 b -> returns (box_sub b x) two3.
Proof. intros. unfold box_sub. sf ltac:(idtac; match goal with |- returns ?t _ => let h := head t in lazymatch h with | @box_sub_assign => eapply sf_box_sub_assign end end). Qed.
Lemma sf_box_getCenter : forall (b : list T * list T),
    two3 b -> returns (box_getCenter b) (fun r => length r = 3).
Proof. intros. unfold box_getCenter. sf ltac:(idtac; match goal with |- returns ?t _ => let h := head t in lazymatch h with | @vec_add => eapply sf_vec_add | @vec_sub => eapply sf_vec_sub | @vec_mul_s => eapply sf_vec_mul_s end end). Qed.
Lemma sf_box_getDimension : forall (b : list T * list T),
    two3 b -> returns (box_getDimension b) (fun r => length r = 3).
Proof. intros. unfold box_getDimension. sf ltac:(idtac; match goal with |- returns ?t _ => let h := head t in lazymatch h with | @vec_sub => eapply sf_vec_sub end end). Qed.
Lemma sf_keep_lt : forall (i : nat) (a : list T) (m : list T),
    i < 3 -> length a = 3 -> length m = 3 -> returns (keep_lt i a m) (fun r => length r = 3).
Proof. intros. unfold keep_lt. sf ltac:(idtac; fail). Qed.
Lemma sf_keep_gt : forall (i : nat) (a : list T) (m : list T),
    i < 3 -> length a = 3 -> length m = 3 -> returns (keep_gt i a m) (fun r => length r = 3).
Proof. intros. unfold keep_gt. sf ltac:(idtac; fail). Qed.
Lemma sf_box_merge : forall (b : list T * list T) (o : list T * list T),
    two3 b -> two3 o -> returns (box_merge b o) two3.
Proof. intros. unfold box_merge. sf ltac:(idtac; match goal with |- returns ?t _ => let h := head t in lazymatch h with | @keep_lt => eapply sf_keep_lt | @keep_gt => eapply sf_keep_gt end end). Qed.
Lemma sf_box_merge_point : forall (b : list T * list T) (p : list T),
    two3 b -> length p = 3 -> returns (box_merge_point b p) two3.
Proof. intros. unfold box_merge_point. sf ltac:(idtac; match goal with |- returns ?t _ => let h := head t in lazymatch h with | @keep_lt => eapply sf_keep_lt | @keep_gt => eapply sf_keep_gt end end). Qed.
Lemma sf_box_setEmpty : forall (b : list T * list T),
    two3 b -> returns (box_setEmpty b) two3.
Proof. intros. unfold box_setEmpty. sf ltac:(idtac; match goal with |- returns ?t _ => let h := head t in lazymatch h with | @vec_assign_fill => eapply sf_vec_assign_fill end end). Qed.
Lemma sf_box_isEmpty : forall (b : list T * list T),
    two3 b -> returns (box_isEmpty b) (fun _ => True).
Proof. intros. unfold box_isEmpty. sf ltac:(idtac; fail). Qed.
Lemma sf_box_unit : returns (box_unit) two3.
Proof. intros. unfold box_unit. sf ltac:(idtac; match goal with |- returns ?t _ => let h := head t in lazymatch h with | @vec_ctor_fill => eapply sf_vec_ctor_fill | @box_make => eapply sf_box_make end end). Qed.
Lemma sf_fr_left : forall (fr : list T),
    length fr = 6 -> returns (fr_left fr) (fun _ => True).
Proof. intros. unfold fr_left. sf ltac:(idtac; fail). Qed.
Lemma sf_fr_right : forall (fr : list T),
    length fr = 6 -> returns (fr_right fr) (fun _ => True).
Proof. intros. unfold fr_right. sf ltac:(idtac; fail). Qed.
Lemma sf_fr_bottom : forall (fr : list T),
    length fr = 6 -> returns (fr_bottom fr) (fun _ => True).
Proof. intros. unfold fr_bottom. sf ltac:(idtac; fail). Qed.
Lemma sf_fr_top : forall (fr : list T),
    length fr = 6 -> returns (fr_top fr) (fun _ => True).
Proof. intros. unfold fr_top. sf ltac:(idtac; fail). Qed.
Lemma sf_fr_near : forall (fr : list T),
    length fr = 6 -> returns (fr_near fr) (fun _ => True).
Proof. intros. unfold fr_near. sf ltac:(idtac; fail). Qed.
Lemma sf_fr_far : forall (fr : list T),
    length fr = 6 -> returns (fr_far fr) (fun _ => True).
Proof. intros. unfold fr_far. sf ltac:(idtac; fail). Qed.
Lemma sf_fr_set : forall (fr : list T) (l : T) (r : T) (b : T) (t : T) (n : T) (f : T),
    length fr = 6 -> returns (fr_set fr l r b t n f) (fun r => length r = 6).
Proof. intros. unfold fr_set. sf ltac:(idtac; fail). Qed.
Lemma sf_fr_DEFAULT : returns (fr_DEFAULT) (fun r => length r = 6).
Proof. intros. unfold fr_DEFAULT. sf ltac:(idtac; match goal with |- returns ?t _ => let h := head t in lazymatch h with | @fr_set => eapply sf_fr_set end end). Qed.
Lemma sf_fr_of_values : forall (values : list T),
    6 <= length values -> returns (fr_of_values values) (fun r => length r = 6).
Proof. intros. unfold fr_of_values. sf ltac:(idtac; fail). Qed.
Lemma sf_fr_assign : forall (fr : list T) (o : arg T),
    length fr = 6 -> arg_of 6 6 o -> returns (fr_assign fr o) (fun r => length r = 6).
Proof. intros. unfold fr_assign. sf ltac:(idtac; fail). Qed.
Lemma sf_fr_adjust_near : forall (fr : list T) (new_near : T),
    total_ops -> length fr = 6 -> returns (fr_adjust_near fr new_near) (fun r => length r = 6).
Proof. intros. unfold fr_adjust_near. sf ltac:(idtac; match goal with |- returns ?t _ => let h := head t in lazymatch h with | @fr_left => eapply sf_fr_left | @fr_right => eapply sf_fr_right | @fr_bottom => eapply sf_fr_bottom | @fr_top => eapply sf_fr_top | @fr_near => eapply sf_fr_near end end). Qed.
Lemma sf_fr_set_perspective : forall (fr : list T) (fov_y : T) (aspect : T) (near : T) (far : T),
    total_ops -> length fr = 6 -> returns (fr_set_perspective fr fov_y aspect near far) (fun r => length r = 6).
Proof. intros. unfold fr_set_perspective. sf ltac:(idtac; match goal with |- returns ?t _ => let h := head t in lazymatch h with | @fr_bottom => eapply sf_fr_bottom | @fr_top => eapply sf_fr_top end end). Qed.
Lemma sf_fr_compute_matrix_into : forall (fr : list T) (m : list T),
    total_ops -> length fr = 6 -> length m = 16 -> returns (fr_compute_matrix_into fr m) (fun r => length r = 16).
Proof. intros. unfold fr_compute_matrix_into. sf ltac:(idtac; match goal with |- returns ?t _ => let h := head t in lazymatch h with | @mat_put => eapply sf_mat_put | @fr_left => eapply sf_fr_left | @fr_right => eapply sf_fr_right | @fr_bottom => eapply sf_fr_bottom | @fr_top => eapply sf_fr_top | @fr_near => eapply sf_fr_near | @fr_far => eapply sf_fr_far end end). Qed.
Lemma sf_fr_compute_matrix : forall (fr : list T),
    total_ops -> length fr = 6 -> returns (fr_compute_matrix fr) (fun r => length r = 16).
Proof. intros. unfold fr_compute_matrix. sf ltac:(idtac; match goal with |- returns ?t _ => let h := head t in lazymatch h with | @mat_default => eapply sf_mat_default | @fr_compute_matrix_into => eapply sf_fr_compute_matrix_into end end). Qed.
Lemma sf_fr_compute_ortho_matrix_into : forall (fr : list T) (m : list T),
    total_ops -> length fr = 6 -> length m = 16 -> returns (fr_compute_ortho_matrix_into fr m) (fun r => length r = 16).
Proof. intros. unfold fr_compute_ortho_matrix_into. sf ltac:(idtac; match goal with |- returns ?t _ => let h := head t in lazymatch h with | @mat_put => eapply sf_mat_put | @fr_left => eapply sf_fr_left | @fr_right => eapply sf_fr_right | @fr_bottom => eapply sf_fr_bottom | @fr_top => eapply sf_fr_top | @fr_near => eapply sf_fr_near | @fr_far => eapply sf_fr_far end end). Qed.
Lemma sf_fr_compute_ortho_matrix : forall (fr : list T),
    total_ops -> length fr = 6 -> returns (fr_compute_ortho_matrix fr) (fun r => length r = 16).
Proof. intros. unfold fr_compute_ortho_matrix. sf ltac:(idtac; match goal with |- returns ?t _ => let h := head t in lazymatch h with | @mat_default => eapply sf_mat_default | @fr_compute_ortho_matrix_into => eapply sf_fr_compute_ortho_matrix_into end end). Qed.
Lemma sf_fr_apply_jitter : forall (fr : list T) (j : list T),
    length fr = 6 -> length j = 2 -> returns (fr_apply_jitter fr j) (fun r => length r = 6).
Proof. intros. unfold fr_apply_jitter. sf ltac:(idtac; match goal with |- returns ?t _ => let h := head t in lazymatch h with | @fr_left => eapply sf_fr_left | @fr_right => eapply sf_fr_right | @fr_bottom => eapply sf_fr_bottom | @fr_top => eapply sf_fr_top end end). Qed.
Lemma sf_fr_get_width : forall (fr : list T),
    length fr = 6 -> returns (fr_get_width fr) (fun _ => True).
Proof. intros. unfold fr_get_width. sf ltac:(idtac; match goal with |- returns ?t _ => let h := head t in lazymatch h with | @fr_left => eapply sf_fr_left | @fr_right => eapply sf_fr_right end end). Qed.
Lemma sf_fr_get_height : forall (fr : list T),
    length fr = 6 -> returns (fr_get_height fr) (fun _ => True).
Proof. intros. unfold fr_get_height. sf ltac:(idtac; match goal with |- returns ?t _ => let h := head t in lazymatch h with | @fr_bottom => eapply sf_fr_bottom | @fr_top => eapply sf_fr_top end end). Qed.
Lemma sf_fc_normalize_plane : forall (plane : list T),
    total_ops -> length plane = 4 -> returns (fc_normalize_plane plane) (fun r => length r = 4).
Proof. intros. unfold fc_normalize_plane. sf ltac:(idtac; match goal with |- returns ?t _ => let h := head t in lazymatch h with | @vec_length => eapply sf_vec_length | @vec_sub_vector => eapply sf_vec_sub_vector end end). Qed.
Lemma sf_fc_setup : forall (m : list T),
    total_ops -> length m = 16 -> returns (fc_setup m) planes4.
Proof. intros. unfold fc_setup. sf ltac:(idtac; match goal with |- returns ?t _ => let h := head t in lazymatch h with | @mat_get_row => eapply sf_mat_get_row | @vec_add => eapply sf_vec_add | @vec_sub => eapply sf_vec_sub | @fc_normalize_plane => eapply sf_fc_normalize_plane end end). all: try (apply returns_ok, planes4_of; assumption). Qed.
Lemma sf_fc_setup_corners : forall (a : list T) (b : list T) (c : list T) (d : list T) (e : list T) (f : list T) (g : list T) (h : list T),
    total_ops -> length a = 3 -> length b = 3 -> length c = 3 -> length d = 3 -> length e = 3 -> length f = 3 -> length g = 3 -> length h = 3 -> returns (fc_setup_corners a b c d e f g h) planes4.
Proof. intros. unfold fc_setup_corners. sf ltac:(idtac; eapply sf_vec_compute_plane). apply returns_ok, planes4_of; assumption. Qed.
Lemma sf_fc_sphere_step : forall (plane : list T) (sphere : list T) (vis : visibility),
    length plane = 4 -> length sphere = 4 -> returns (fc_sphere_step plane sphere vis) (fun _ => True).
Proof. intros. unfold fc_sphere_step. sf ltac:(idtac; fail). Qed.
Lemma sf_fc_test_sphere : forall (c : @culler T) (sphere : list T),
    planes4 c -> length sphere = 4 -> returns (fc_test_sphere c sphere) (fun _ => True).
Proof. intros c sphere HC HS. unfold fc_test_sphere. apply sf_steps; [|exact HC]. intros p v Hp. apply sf_fc_sphere_step; assumption. Qed.
Lemma sf_fc_test_plane : forall (plane : list T) (middle : list T) (extent : list T),
    length plane = 4 -> length middle = 3 -> length extent = 3 -> returns (fc_test_plane plane middle extent) (fun _ => True).
Proof. intros. unfold fc_test_plane. sf ltac:(idtac; match goal with |- returns ?t _ => let h := head t in lazymatch h with | @vec_dot => eapply sf_vec_dot | @vec_to_hom => eapply sf_vec_to_hom end end). Qed.
Lemma sf_fc_test_aabb : forall (c : @culler T) (x : list T) (y : list T) (z : list T),
    planes4 c -> length x = 2 -> length y = 2 -> length z = 2 -> returns (fc_test_aabb c x y z) (fun _ => True).
Proof. intros. unfold fc_test_aabb. sf ltac:(idtac; match goal with |- returns ?t _ => let h := head t in lazymatch h with | @vat => eapply sf_vat | @vec_set3 => eapply sf_vec_set3 | @vec_mul_s => eapply sf_vec_mul_s end end). apply sf_steps; [|assumption]. intros p v Hp. eapply returns_bind; [apply sf_fc_test_plane; assumption|]. intros w _. apply returns_ok. exact I. Qed.
Lemma sf_ray_make : forall (origin : list T) (direction : list T),
    total_ops -> length origin = 3 -> length direction = 3 -> returns (ray_make origin direction) two3.
Proof. intros. unfold ray_make. sf ltac:(idtac; match goal with |- returns ?t _ => let h := head t in lazymatch h with | @vec_normalized => eapply sf_vec_normalized end end). Qed.
Lemma sf_ray_test_sphere : forall (ry : list T * list T) (sphere : list T) (t : T),
    total_ops -> two3 ry -> length sphere = 4 -> returns (ray_test_sphere ry sphere t) (fun _ => True).
Proof. intros. unfold ray_test_sphere. sf ltac:(idtac; match goal with |- returns ?t _ => let h := head t in lazymatch h with | @vec_set3 => eapply sf_vec_set3 | @vec_sub => eapply sf_vec_sub | @vec_dot => eapply sf_vec_dot | @vec_squared_length => eapply sf_vec_squared_length end end). Qed.
Lemma sf_qr_inner : forall (M : nat) (N : nat) (A : list T) (j : nat) (i : nat) (st : @qr_state T),
    length A = (M * N) -> j < N -> i < M -> qr_sized M N st -> i < N -> returns (qr_inner M N A j i st) (qr_sized M N).
Proof. intros M N A j i [[[[Q R0] v] q] a] HA Hj Hi (H1 & H2 & H3 & H4 & H5) HiN. unfold qr_inner. sf ltac:(idtac; match goal with |- returns ?t _ => let h := head t in lazymatch h with | @mat_get_column_into => eapply sf_mat_get_column_into | @vec_dot => eapply sf_vec_dot | @mat_put => eapply sf_mat_put | @mat_at => eapply sf_mat_at | @vec_mul_s => eapply sf_vec_mul_s | @vec_sub_assign => eapply sf_vec_sub_assign end end). all: try (apply returns_ok; repeat split; assumption). Qed.
Lemma sf_qr_column : forall (M : nat) (N : nat) (A : list T) (j : nat) (st : @qr_state T),
    total_ops -> length A = (M * N) -> j < N -> qr_sized M N st -> N <= M -> returns (qr_column M N A j st) (qr_sized M N).
Proof. intros M N A j [[[[Q R0] v] q] a] HT HA Hj (H1 & H2 & H3 & H4 & H5) HMN. unfold qr_column. eapply returns_bind; [apply sf_mat_get_column_into; assumption|intros v' Hv]. eapply returns_bind; [apply (sf_for (qr_sized M N)); [repeat split; assumption|]|]. { intros i st Hi Hst. apply sf_qr_inner; [assumption|assumption|lia|exact Hst|lia]. } intros [[[[Q' R1] w] q'] a'] (G1 & G2 & G3 & G4 & G5). sf ltac:(idtac; match goal with |- returns ?t _ => let h := head t in lazymatch h with | @vec_length => eapply sf_vec_length | @mat_put => eapply sf_mat_put | @mat_at => eapply sf_mat_at | @vec_div_s => eapply sf_vec_div_s | @mat_set_column => eapply sf_mat_set_column end end). all: try (apply returns_ok; repeat split; assumption). Qed.
Lemma sf_qr_decompose : forall (M : nat) (N : nat) (A : list T) (Q : list T) (R' : list T),
    total_ops -> length A = (M * N) -> length Q = (M * M) -> length R' = (N * N) -> N <= M -> returns (qr_decompose M N A Q R') (fun r => length (fst r) = (M * M) /\ length (snd r) = (N * N)).
Proof. intros M N A Q R0 HT HA HQ HR HMN. unfold qr_decompose. eapply returns_bind; [apply sf_mat_assign_value; assumption|intros Q' HQ']. eapply returns_bind; [apply sf_mat_assign_value; assumption|intros R' HR']. eapply returns_bind; [apply (sf_for (qr_sized M N)); [repeat split; try assumption; apply repeat_length|]|]. { intros j st Hj Hst. apply sf_qr_column; [assumption|assumption|lia|exact Hst|assumption]. } intros [[[[Q2 R2] w] q'] a'] (G1 & G2 & _). apply returns_ok. split; assumption. Qed.
Lemma sf_lp_add : forall (M : nat) (f : lowpass T) (value : T),
    0 < M -> returns (lp_add M f value) (fun _ => True).
Proof. intros M f value HM. unfold lp_add. cbv zeta. pose proof (lp_trim_cons M (length (value :: lp_data f)) (value :: lp_data f) HM ltac:(discriminate)) as E. destruct (lp_trim _ M _) as [|x rest]; [contradiction E; reflexivity|]. apply returns_ok. exact I. Qed.
Lemma sf_math_pythag : forall (a : T) (b : T),
    total_ops -> returns (math_pythag a b) (fun _ => True).
Proof. intros. unfold math_pythag. sf ltac:(idtac; fail). Qed.
Lemma sf_vec_write : forall (M : nat) (v : list T) (os : list ascii),
    length v = M -> returns (vec_write M v os) (fun _ => True).
Proof. intros. unfold vec_write. sf ltac:(idtac; match goal with |- returns ?t _ => let h := head t in lazymatch h with | @vat => eapply sf_vat end end). Qed.
Lemma sf_vec_read : forall (M : nat) (v : list T) (is : istream),
    length v = M -> returns (vec_read M v is) (fun r => length (fst r) = M).
Proof. intros. unfold vec_read. sf ltac:(idtac; match goal with |- returns ?t _ => let h := head t in lazymatch h with | @vat => eapply sf_vat | @vset => eapply sf_vset end end). Qed.
Lemma sf_mat_write : forall (M : nat) (N : nat) (m : list T) (os : list ascii),
    length m = (M * N) -> returns (mat_write M N m os) (fun _ => True).
Proof. intros. unfold mat_write. sf ltac:(idtac; match goal with |- returns ?t _ => let h := head t in lazymatch h with | @mat_at => eapply sf_mat_at end end). Qed.
Lemma sf_mat_read : forall (M : nat) (N : nat) (m : list T) (is : istream),
    length m = (M * N) -> returns (mat_read M N m is) (fun r => length (fst r) = (M * N)).
Proof. intros. unfold mat_read. sf ltac:(idtac; match goal with |- returns ?t _ => let h := head t in lazymatch h with | @mat_at => eapply sf_mat_at | @mat_put => eapply sf_mat_put end end). Qed.


(** C112: vectors (vector.hpp, util.hpp). *)
Theorem C112_calls_return_vector :
  (forall (M : nat) (v : list T) (i : nat),
    length v = M -> i < M -> returns (vat M v i) (fun _ => True)) /\
  (forall (M : nat) (v : list T) (i : nat) (x : T),
    length v = M -> i < M -> returns (vset M v i x) (fun r => length r = M)) /\
  (forall (M : nat) (g : list T) (a : T),
    length g = M -> returns (vec_ctor_fill M g a) (fun r => length r = M)) /\
  (forall (v : list T) (x : T) (y : T),
    length v = 2 -> returns (vec_set2 v x y) (fun r => length r = 2)) /\
  (forall (v : list T) (x : T) (y : T) (z : T),
    length v = 3 -> returns (vec_set3 v x y z) (fun r => length r = 3)) /\
  (forall (v : list T) (x : T) (y : T) (z : T) (w : T),
    length v = 4 -> returns (vec_set4 v x y z w) (fun r => length r = 4)) /\
  (forall (M : nat) (g : list T) (values : list T),
    length g = M -> M <= length values -> returns (vec_ctor_ptr M g values) (fun r => length r = M)) /\
  (forall (M : nat) (g : list T) (src : list T) (last : T),
    length g = M -> length src = (M - 1) -> 0 < M -> returns (vec_ctor_last M g src last) (fun r => length r = M)) /\
  (forall (M : nat) (v : list T) (a : T),
    length v = M -> returns (vec_set_fill M v a) (fun r => length r = M)) /\
  (forall (M : nat) (v : list T) (src : list T) (a : T),
    length v = M -> length src = (M - 1) -> 0 < M -> returns (vec_set_last M v src a) (fun r => length r = M)) /\
  (forall (M : nat) (N : nat) (v : list T) (src : list T),
    length v = M -> length src = N -> returns (vec_set_vec M N v src) (fun r => length r = M)) /\
  (forall (M : nat) (u : list T) (v : list T),
    length u = M -> length v = M -> returns (vec_mul M u v) (fun r => length r = M)) /\
  (forall (M : nat) (u : list T) (v : list T),
    total_ops -> length u = M -> length v = M -> returns (vec_div M u v) (fun r => length r = M)) /\
  (forall (M : nat) (u : list T) (v : list T),
    length u = M -> length v = M -> returns (vec_add M u v) (fun r => length r = M)) /\
  (forall (M : nat) (u : list T) (v : list T),
    length u = M -> length v = M -> returns (vec_sub M u v) (fun r => length r = M)) /\
  (forall (M : nat) (v : list T) (x : T),
    length v = M -> returns (vec_mul_s M v x) (fun r => length r = M)) /\
  (forall (M : nat) (v : list T) (x : T),
    total_ops -> length v = M -> returns (vec_div_s M v x) (fun r => length r = M)) /\
  (forall (M : nat) (v : list T) (x : T),
    length v = M -> returns (vec_add_s M v x) (fun r => length r = M)) /\
  (forall (M : nat) (v : list T) (x : T),
    length v = M -> returns (vec_sub_s M v x) (fun r => length r = M)) /\
  (forall (M : nat) (v : list T) (o : arg T),
    length v = M -> arg_of M M o -> returns (vec_mul_assign M v o) (fun r => length r = M)) /\
  (forall (M : nat) (v : list T) (o : arg T),
    total_ops -> length v = M -> arg_of M M o -> returns (vec_div_assign M v o) (fun r => length r = M)) /\
  (forall (M : nat) (v : list T) (o : arg T),
    length v = M -> arg_of M M o -> returns (vec_add_assign M v o) (fun r => length r = M)) /\
  (forall (M : nat) (v : list T) (o : arg T),
    length v = M -> arg_of M M o -> returns (vec_sub_assign M v o) (fun r => length r = M)) /\
  (forall (M : nat) (v : list T) (x : T),
    length v = M -> returns (vec_mul_assign_s M v x) (fun r => length r = M)) /\
  (forall (M : nat) (v : list T) (x : T),
    total_ops -> length v = M -> returns (vec_div_assign_s M v x) (fun r => length r = M)) /\
  (forall (M : nat) (v : list T) (x : T),
    length v = M -> returns (vec_add_assign_s M v x) (fun r => length r = M)) /\
  (forall (M : nat) (v : list T) (x : T),
    length v = M -> returns (vec_sub_assign_s M v x) (fun r => length r = M)) /\
  (forall (M : nat) (v : list T),
    length v = M -> returns (vec_negate M v) (fun r => length r = M)) /\
  (forall (M : nat) (v : list T),
    length v = M -> returns (vec_neg M v) (fun r => length r = M)) /\
  (forall (v : list T) (aa : arg T) (bb : arg T),
    length v = 3 -> arg_of 3 3 aa -> arg_of 3 3 bb -> returns (vec_cross_into v aa bb) (fun r => length r = 3)) /\
  (forall (u : list T) (v : list T),
    length u = 3 -> length v = 3 -> returns (vec_cross u v) (fun r => length r = 3)) /\
  (forall (M : nat) (u : list T) (v : list T),
    length u = M -> length v = M -> returns (vec_dot M u v) (fun _ => True)) /\
  (forall (M : nat) (v : list T),
    length v = M -> returns (vec_squared_length M v) (fun _ => True)) /\
  (forall (M : nat) (v : list T),
    total_ops -> length v = M -> returns (vec_length M v) (fun _ => True)) /\
  (forall (M : nat) (v : list T),
    total_ops -> length v = M -> returns (vec_normalize M v) (fun r => length (snd r) = M)) /\
  (forall (M : nat) (v : list T),
    total_ops -> length v = M -> returns (vec_normalized M v) (fun r => length r = M)) /\
  (forall (M : nat) (u : list T) (v : list T),
    length u = M -> length v = M -> returns (vec_squared_distance M u v) (fun _ => True)) /\
  (forall (M : nat) (u : list T) (v : list T),
    total_ops -> length u = M -> length v = M -> returns (vec_distance M u v) (fun _ => True)) /\
  (forall (M : nat) (v : list T),
    total_ops -> length v = M -> returns (vec_norm M v) (fun _ => True)) /\
  (forall (M : nat) (v : list T),
    length v = M -> 0 < M -> returns (vec_product M v) (fun _ => True)) /\
  (forall (v : list T) (aa : arg T) (bb : arg T) (cc : arg T),
    total_ops -> length v = 3 -> arg_of 3 3 aa -> arg_of 3 3 bb -> arg_of 3 3 cc -> returns (vec_compute_normal_into v aa bb cc) (fun r => length r = 3)) /\
  (forall (a : list T) (b : list T) (c : list T),
    total_ops -> length a = 3 -> length b = 3 -> length c = 3 -> returns (vec_compute_normal a b c) (fun r => length r = 3)) /\
  (forall (N : nat) (v : list T) (offset : nat),
    offset + N <= length v -> returns (vec_sub_vector N v offset) (fun r => length r = N)) /\
  (forall (N : nat) (v : list T) (offset : nat) (i : nat) (x : T),
    i < N -> offset + N <= length v -> returns (vec_sub_vector_set N v offset i x) (fun r => length r = (length v))) /\
  (forall (M : nat) (v : list T) (src : list T),
    length v = M -> length src = (M - 1) -> 0 < M -> returns (vec_to_hom M v src) (fun r => length r = M)) /\
  (forall (M : nat) (v : list T) (src : list T),
    total_ops -> length v = M -> length src = (M + 1) -> returns (vec_from_hom M v src) (fun r => length r = M)) /\
  (forall (a : list T) (b : list T) (c : list T),
    total_ops -> length a = 3 -> length b = 3 -> length c = 3 -> returns (vec_compute_plane a b c) (fun r => length r = 4)) /\
  (forall (sphere : list T) (point : list T),
    total_ops -> length sphere = 4 -> length point = 3 -> returns (vec_project_sphere sphere point) (fun r => length r = 3)) /\
  (forall (sphere : list T) (point : list T),
    total_ops -> length sphere = 4 -> length point = 3 -> returns (vec_dist_sphere sphere point) (fun _ => True)) /\
  (forall (plane : list T) (point : list T),
    length plane = 4 -> length point = 3 -> returns (vec_dist_plane plane point) (fun _ => True)) /\
  (forall (plane : list T) (point : list T),
    length plane = 4 -> length point = 3 -> returns (vec_project_plane plane point) (fun r => length r = 3)) /\
  (forall (M : nat) (u : list T) (v : list T) (tol : T),
    length u = M -> length v = M -> returns (vec_equals M u v tol) (fun _ => True)) /\
  (forall (M : nat) (u : list T) (v : list T),
    length u = M -> length v = M -> returns (vec_equals_default M u v) (fun _ => True)) /\
  (forall (M : nat) (u : list T) (v : list T),
    length u = M -> length v = M -> returns (vec_less M u v) (fun _ => True)) /\
  (forall (M : nat) (v : list T) (src : list T),
    length v = M -> returns (vec_iter_set M v src) (fun r => length r = M)) /\
  (forall (M : nat) (v : list T) (c_array : list T),
    length v = M -> M <= length c_array -> returns (vec_assign_ptr M v c_array) (fun r => length r = M)) /\
  (forall (M : nat) (v : list T) (x : T),
    length v = M -> returns (vec_assign_fill M v x) (fun r => length r = M)) /\
  (forall (M : nat) (v : list T) (o : arg T),
    length v = M -> arg_of M M o -> returns (vec_assign M v o) (fun r => length r = M)) /\
  (forall {U : Type} (cast : U -> T) (M : nat) (v : list T) (src : list U),
    length v = M -> length src = M -> returns (vec_cast_from cast M v src) (fun r => length r = M)) /\
  (forall (M : nat) (v : list T) (mn : T) (mx : T),
    length v = M -> returns (vec_clamp M v mn mx) (fun r => length r = M)) /\
  (forall {U : Type} (cast : T -> U) (maxTT : T) (M : nat) (v : list T) (result : list U) (mn : T) (mx : T),
    total_ops -> length v = M -> length result = M -> returns (vec_scale_to cast maxTT M v result mn mx) (fun r => length r = M)) /\
  (forall (cmp : T -> T -> bool) (v : list T),
    returns (min_element_by cmp v) (fun r => r < (Nat.max 1 (length v)))) /\
  (forall (cmp : T -> T -> bool) (v : list T),
    returns (max_element_by cmp v) (fun r => r < (Nat.max 1 (length v)))) /\
  (forall (v : list T),
    returns (vec_find_min_index v) (fun r => r < (Nat.max 1 (length v)))) /\
  (forall (v : list T),
    returns (vec_find_max_index v) (fun r => r < (Nat.max 1 (length v)))) /\
  (forall (v : list T),
    returns (vec_find_abs_min_index v) (fun r => r < (Nat.max 1 (length v)))) /\
  (forall (v : list T),
    returns (vec_find_abs_max_index v) (fun r => r < (Nat.max 1 (length v)))) /\
  (forall (v : list T),
    0 < length v -> returns (vec_find_min v) (fun _ => True)) /\
  (forall (v : list T),
    0 < length v -> returns (vec_find_max v) (fun _ => True)) /\
  (forall (M : nat) (v : list T),
    length v = M -> returns (vec_is_unit_vector M v) (fun _ => True)) /\
  (forall (M : nat) (v : list T),
    total_ops -> length v = M -> returns (vec_sqrt M v) (fun r => length r = M)) /\
  (forall (M : nat) (v : list T),
    total_ops -> length v = M -> returns (vec_reciprocal M v) (fun r => length r = M)) /\
  (forall (M : nat) (v : list T),
    total_ops -> length v = M -> returns (vec_reciprocal_safe M v) (fun r => length r = M)) /\
  (forall (M : nat) (v : list T),
    length v = M -> returns (vec_nnz M v) (fun _ => True)) /\
  (forall (rnd : Z -> nat -> Z) (M : nat) (v : list T) (p : T) (st : rng),
    length v = M -> returns (vec_perturb rnd M v p st) (fun r => length (fst r) = M)) /\
  (forall (rnd : Z -> nat -> Z) (RAND_MAX : Z) (ofZ : Z -> T) (M : nat) (v : list T) (seed : Z) (st : rng),
    total_ops -> length v = M -> returns (vec_set_random rnd RAND_MAX ofZ M v seed st) (fun r => length (fst r) = M)) /\
  (forall (M : nat) (v : list T),
    length v = M -> returns (vec_zero M v) (fun r => length r = M)) /\
  (forall (M : nat) (u : list T) (v : list T),
    length u = M -> length v = M -> returns (vec_min M u v) (fun r => length r = M)) /\
  (forall (M : nat) (u : list T) (v : list T),
    length u = M -> length v = M -> returns (vec_max M u v) (fun r => length r = M)) /\
  (forall (M : nat) (v : list T),
    length v = M -> returns (vec_manhattan M v) (fun _ => True)) /\
  (forall (v : list T) (theta : T) (axis : list T),
    total_ops -> length v = 3 -> length axis = 3 -> returns (vec_rotate v theta axis) (fun r => length r = 3)).
Proof.
  repeat match goal with |- _ /\ _ => split end.
  - exact sf_vat.
  - exact sf_vset.
  - exact sf_vec_ctor_fill.
  - exact sf_vec_set2.
  - exact sf_vec_set3.
  - exact sf_vec_set4.
  - exact sf_vec_ctor_ptr.
  - exact sf_vec_ctor_last.
  - exact sf_vec_set_fill.
  - exact sf_vec_set_last.
  - exact sf_vec_set_vec.
  - exact sf_vec_mul.
  - exact sf_vec_div.
  - exact sf_vec_add.
  - exact sf_vec_sub.
  - exact sf_vec_mul_s.
  - exact sf_vec_div_s.
  - exact sf_vec_add_s.
  - exact sf_vec_sub_s.
  - exact sf_vec_mul_assign.
  - exact sf_vec_div_assign.
  - exact sf_vec_add_assign.
  - exact sf_vec_sub_assign.
  - exact sf_vec_mul_assign_s.
  - exact sf_vec_div_assign_s.
  - exact sf_vec_add_assign_s.
  - exact sf_vec_sub_assign_s.
  - exact sf_vec_negate.
  - exact sf_vec_neg.
  - exact sf_vec_cross_into.
  - exact sf_vec_cross.
  - exact sf_vec_dot.
  - exact sf_vec_squared_length.
  - exact sf_vec_length.
  - exact sf_vec_normalize.
  - exact sf_vec_normalized.
  - exact sf_vec_squared_distance.
  - exact sf_vec_distance.
  - exact sf_vec_norm.
  - exact sf_vec_product.
  - exact sf_vec_compute_normal_into.
  - exact sf_vec_compute_normal.
  - exact sf_vec_sub_vector.
  - exact sf_vec_sub_vector_set.
  - exact sf_vec_to_hom.
  - exact sf_vec_from_hom.
  - exact sf_vec_compute_plane.
  - exact sf_vec_project_sphere.
  - exact sf_vec_dist_sphere.
  - exact sf_vec_dist_plane.
  - exact sf_vec_project_plane.
  - exact sf_vec_equals.
  - exact sf_vec_equals_default.
  - exact sf_vec_less.
  - exact sf_vec_iter_set.
  - exact sf_vec_assign_ptr.
  - exact sf_vec_assign_fill.
  - exact sf_vec_assign.
  - intros U. exact (@sf_vec_cast_from U).
  - exact sf_vec_clamp.
  - intros U. exact (@sf_vec_scale_to U).
  - exact sf_min_element_by.
  - exact sf_max_element_by.
  - exact sf_vec_find_min_index.
  - exact sf_vec_find_max_index.
  - exact sf_vec_find_abs_min_index.
  - exact sf_vec_find_abs_max_index.
  - exact sf_vec_find_min.
  - exact sf_vec_find_max.
  - exact sf_vec_is_unit_vector.
  - exact sf_vec_sqrt.
  - exact sf_vec_reciprocal.
  - exact sf_vec_reciprocal_safe.
  - exact sf_vec_nnz.
  - exact sf_vec_perturb.
  - exact sf_vec_set_random.
  - exact sf_vec_zero.
  - exact sf_vec_min.
  - exact sf_vec_max.
  - exact sf_vec_manhattan.
  - exact sf_vec_rotate.
Qed.

(** C112: matrices (matrix.hpp, matrix_functors.hpp, util.hpp, traits), including the in-place forms. *)
Theorem C112_calls_return_matrix :
  (forall (M : nat) (N : nat) (m : list T) (r : nat) (c : nat),
    length m = (M * N) -> r < M -> c < N -> returns (mat_at M N m r c) (fun _ => True)) /\
  (forall (M : nat) (N : nat) (m : list T) (r : nat) (c : nat) (x : T),
    length m = (M * N) -> r < M -> c < N -> returns (mat_put M N m r c x) (fun r => length r = (M * N))) /\
  (forall (M : nat) (N : nat) (m : list T) (r : nat) (c : nat),
    length m = (M * N) -> r < M -> c < N -> returns (mat_sq_at M N m r c) (fun _ => True)) /\
  (forall (M : nat) (N : nat) (m : list T) (r : nat) (c : nat) (x : T),
    length m = (M * N) -> r < M -> c < N -> returns (mat_sq_put M N m r c x) (fun r => length r = (M * N))) /\
  (forall (M : nat) (N : nat) (m : list T) (x : T),
    length m = (M * N) -> returns (mat_fill M N m x) (fun r => length r = (M * N))) /\
  (forall (M : nat) (N : nat) (m : list T),
    length m = (M * N) -> returns (mat_zero M N m) (fun r => length r = (M * N))) /\
  (forall (M : nat) (N : nat) (m : list T) (x : T),
    length m = (M * N) -> returns (mat_assign_value M N m x) (fun r => length r = (M * N))) /\
  (forall (M : nat) (N : nat),
    returns (mat_default M N) (fun r => length r = (M * N))) /\
  (forall (M : nat) (m : list T),
    length m = (M * M) -> returns (mat_identity M M m) (fun r => length r = (M * M))) /\
  (forall (M : nat),
    returns (mat_IDENTITY M) (fun r => length r = (M * M))) /\
  (forall (M : nat) (N : nat),
    returns (mat_ZERO M N) (fun r => length r = (M * N))) /\
  (forall (M : nat) (N : nat) (m : list T) (o : arg T),
    length m = (M * N) -> arg_of (M * N) (M * N) o -> returns (mat_assign M N m o) (fun r => length r = (M * N))) /\
  (forall {U : Type} (cast : U -> T) (M : nat) (N : nat) (P : nat) (Q : nat) (m : list T) (src : list U),
    length m = (M * N) -> length src = (P * Q) -> returns (mat_assign_resize cast M N P Q m src) (fun r => length r = (M * N))) /\
  (forall (M : nat) (N : nat) (m : list T) (a : list T),
    length m = (M * N) -> (M * N) <= length a -> returns (mat_assign_2d M N m a) (fun r => length r = (M * N))) /\
  (forall (M : nat) (N : nat) (m : list T) (src : list T),
    length m = (M * N) -> returns (mat_set M N m src true) (fun r => length r = (M * N))) /\
  (forall (M : nat) (N : nat) (m : list T) (src : list T),
    length m = (M * N) -> (M * N) <= length src -> returns (mat_set M N m src false) (fun r => length r = (M * N))) /\
  (forall (M : nat) (N : nat) (m : list T) (data : list T),
    length m = (M * N) -> (M * N) <= length data -> returns (mat_assign_ptr M N m data) (fun r => length r = (M * N))) /\
  (forall (M : nat) (N : nat) (m : list T) (data : list T),
    length m = (M * N) -> (M * N) <= length data -> returns (mat_assign_vector M N m data) (fun r => length r = (M * N))) /\
  (forall {U : Type} (cast : U -> T) (M : nat) (N : nat) (m : list T) (src : list U),
    length m = (M * N) -> length src = (M * N) -> returns (mat_cast_from cast M N m src) (fun r => length r = (M * N))) /\
  (forall (M : nat) (N : nat) (m : list T) (o : list T),
    length m = (M * N) -> length o = (M * N) -> returns (mat_eq M N m o) (fun _ => True)) /\
  (forall (M : nat) (N : nat) (m : list T) (o : list T),
    length m = (M * N) -> length o = (M * N) -> returns (mat_neq M N m o) (fun _ => True)) /\
  (forall (cmp : T -> T -> bool) (M : nat) (N : nat) (m : list T) (o : list T),
    length m = (M * N) -> length o = (M * N) -> returns (mat_equals_by cmp M N m o) (fun _ => True)) /\
  (forall (M : nat) (N : nat) (m : list T) (o : list T) (tol : T),
    length m = (M * N) -> length o = (M * N) -> returns (mat_equals M N m o tol) (fun _ => True)) /\
  (forall (M : nat) (N : nat) (m : list T) (o : arg T),
    length m = (M * N) -> arg_of (M * N) (M * N) o -> returns (mat_mul_piecewise M N m o) (fun r => length r = (M * N))) /\
  (forall (M : nat) (P : nat) (N : nat) (m : list T) (left : arg T) (right : arg T),
    length m = (M * N) -> arg_of (M * N) (M * P) left -> arg_of (M * N) (P * N) right -> returns (mat_multiply M P N m left right) (fun r => length r = (M * N))) /\
  (forall (M : nat) (N : nat) (P : nat) (m : list T) (o : list T),
    length m = (M * N) -> length o = (N * P) -> returns (mat_mul M N P m o) (fun r => length r = (M * P))) /\
  (forall (M : nat) (m : list T) (o : arg T),
    length m = (M * M) -> arg_of (M * M) (M * M) o -> returns (mat_mul_assign M m o) (fun r => length r = (M * M))) /\
  (forall (M : nat) (N : nat) (m : list T) (x : T),
    total_ops -> length m = (M * N) -> returns (mat_div_s M N m x) (fun r => length r = (M * N))) /\
  (forall (M : nat) (N : nat) (m : list T) (x : T),
    length m = (M * N) -> returns (mat_mul_s M N m x) (fun r => length r = (M * N))) /\
  (forall (M : nat) (N : nat) (m : list T) (x : T),
    total_ops -> length m = (M * N) -> returns (mat_div_assign_s M N m x) (fun r => length r = (M * N))) /\
  (forall (M : nat) (N : nat) (m : list T) (x : T),
    length m = (M * N) -> returns (mat_mul_assign_s M N m x) (fun r => length r = (M * N))) /\
  (forall (M : nat) (N : nat) (op : T -> T -> T) (m : list T) (o : arg T),
    length m = (M * N) -> arg_of (M * N) (M * N) o -> returns (mat_iter_zip M N op m o) (fun r => length r = (M * N))) /\
  (forall (M : nat) (N : nat) (m : list T) (o : arg T),
    length m = (M * N) -> arg_of (M * N) (M * N) o -> returns (mat_add_assign M N m o) (fun r => length r = (M * N))) /\
  (forall (M : nat) (N : nat) (m : list T) (o : arg T),
    length m = (M * N) -> arg_of (M * N) (M * N) o -> returns (mat_sub_assign M N m o) (fun r => length r = (M * N))) /\
  (forall (M : nat) (N : nat) (op : T -> T) (m : list T),
    length m = (M * N) -> returns (mat_iter_map M N op m) (fun r => length r = (M * N))) /\
  (forall (M : nat) (N : nat) (m : list T) (x : T),
    length m = (M * N) -> returns (mat_add_assign_s M N m x) (fun r => length r = (M * N))) /\
  (forall (M : nat) (N : nat) (m : list T) (x : T),
    length m = (M * N) -> returns (mat_sub_assign_s M N m x) (fun r => length r = (M * N))) /\
  (forall (M : nat) (N : nat) (m : list T) (o : list T),
    length m = (M * N) -> length o = (M * N) -> returns (mat_add M N m o) (fun r => length r = (M * N))) /\
  (forall (M : nat) (N : nat) (m : list T) (o : list T),
    length m = (M * N) -> length o = (M * N) -> returns (mat_sub M N m o) (fun r => length r = (M * N))) /\
  (forall (M : nat) (N : nat) (m : list T) (v : list T),
    length m = (M * N) -> length v = N -> returns (mat_mul_vec M N m v) (fun r => length r = M)) /\
  (forall (M : nat) (N : nat) (m : list T),
    length m = (M * N) -> returns (mat_negate M N m) (fun r => length r = (M * N))) /\
  (forall (n : nat) (m : list T) (u : list T) (v : list T),
    length m = (n * n) -> length u = n -> length v = n -> returns (mat_tensor n n m u v) (fun r => length r = (n * n))) /\
  (forall (m : list T) (u : list T) (v : list T),
    length m = 16 -> length u = 3 -> length v = 3 -> returns (mat_tensor34 m u v) (fun r => length r = 16)) /\
  (forall (M : nat) (N : nat) (m : list T) (t : list T),
    length m = (M * N) -> length t = (N * M) -> returns (mat_transpose_to M N m t) (fun r => length r = (N * M))) /\
  (forall (M : nat) (N : nat) (m : list T),
    length m = (M * N) -> returns (mat_transpose M N m) (fun r => length r = (N * M))) /\
  (forall (M : nat) (N : nat) (m : list T) (cov : list T),
    length m = (M * N) -> length cov = (M * M) -> returns (mat_sym_cov M N m cov) (fun r => length r = (M * M))) /\
  (forall (M : nat) (N : nat) (m : list T) (index : nat) (column : list T),
    length m = (M * N) -> index < N -> length column = M -> returns (mat_get_column_into M N m index column) (fun r => length r = M)) /\
  (forall (M : nat) (N : nat) (m : list T) (index : nat),
    length m = (M * N) -> index < N -> returns (mat_get_column M N m index) (fun r => length r = M)) /\
  (forall (M : nat) (N : nat) (m : list T) (index : nat) (column : list T),
    length m = (M * N) -> index < N -> length column = M -> returns (mat_set_column M N m index column) (fun r => length r = (M * N))) /\
  (forall (M : nat) (N : nat) (m : list T) (index : nat) (row : list T),
    length m = (M * N) -> index < M -> length row = N -> returns (mat_get_row_into M N m index row) (fun r => length r = N)) /\
  (forall (M : nat) (N : nat) (m : list T) (index : nat),
    length m = (M * N) -> index < M -> returns (mat_get_row M N m index) (fun r => length r = N)) /\
  (forall (M : nat) (N : nat) (m : list T) (index : nat) (row : list T),
    length m = (M * N) -> index < M -> length row = N -> returns (mat_set_row M N m index row) (fun r => length r = (M * N))) /\
  (forall (M : nat) (N : nat) (O : nat) (P : nat) (m : list T) (result : list T) (ro : nat) (co : nat),
    length m = (M * N) -> length result = (O * P) -> O + ro <= M -> P + co <= N -> returns (mat_get_sub M N O P m result ro co) (fun r => length r = (O * P))) /\
  (forall (M : nat) (N : nat) (O : nat) (P : nat) (m : list T) (ro : nat) (co : nat),
    length m = (M * N) -> O + ro <= M -> P + co <= N -> returns (mat_sub_matrix M N O P m ro co) (fun r => length r = (O * P))) /\
  (forall (M : nat) (N : nat) (O : nat) (P : nat) (m : list T) (sub : list T) (ro : nat) (co : nat),
    length m = (M * N) -> length sub = (O * P) -> O + ro <= M -> P + co <= N -> returns (mat_set_sub M N O P m sub ro co) (fun r => length r = (M * N))) /\
  (forall (O : nat) (P : nat) (Q : nat) (R' : nat) (m : list T) (ul : list T) (lr : list T),
    length m = ((O + Q) * (P + R')) -> length ul = (O * P) -> length lr = (Q * R') -> returns (mat_direct_sum O P Q R' m ul lr) (fun r => length r = ((O + Q) * (P + R')))) /\
  (forall (M : nat) (N : nat) (O : nat) (m : list T) (right : list T) (prod : list T),
    length m = (M * N) -> length right = (O * N) -> length prod = (M * O * N) -> returns (mat_khatri_rao M N O m right prod) (fun r => length r = (M * O * N))) /\
  (forall (M : nat) (N : nat) (O : nat) (P : nat) (m : list T) (right : list T) (result : list T),
    length m = (M * N) -> length right = (O * P) -> length result = (M * O * (N * P)) -> returns (mat_kronecker M N O P m right result) (fun r => length r = (M * O * (N * P)))) /\
  (forall (R' : nat) (m : list T) (d : list T),
    length m = (R' * R') -> length d = R' -> returns (mat_diag R' m d) (fun r => length r = (R' * R'))) /\
  (forall (M : nat) (N : nat) (m : list T),
    total_ops -> length m = (M * N) -> returns (mat_frobenius M N m) (fun _ => True)) /\
  (forall (M : nat) (N : nat) (m : list T),
    length m = (M * N) -> returns (mat_sum_elements M N m) (fun _ => True)) /\
  (forall (M : nat) (N : nat) (m : list T) (out : list T),
    length m = (M * N) -> length out = N -> returns (mat_columnwise_sum M N m out) (fun r => length r = N)) /\
  (forall (M : nat) (N : nat) (m : list T) (other : list T),
    length m = (M * N) -> length other = (M / 2 * N) -> returns (mat_sum_rows M N m other) (fun r => length r = (M / 2 * N))) /\
  (forall (M : nat) (N : nat) (m : list T) (other : list T),
    length m = (M * N) -> length other = (M * (N / 2)) -> returns (mat_sum_columns M N m other) (fun r => length r = (M * (N / 2)))) /\
  (forall (M : nat) (N : nat) (m : list T),
    length m = (M * N) -> returns (mat_get_min M N m) (fun _ => True)) /\
  (forall (M : nat) (N : nat) (m : list T),
    length m = (M * N) -> returns (mat_get_max M N m) (fun _ => True)) /\
  (forall (M : nat) (N : nat) (m : list T),
    length m = (M * N) -> returns (mat_get_abs_min M N m) (fun _ => True)) /\
  (forall (M : nat) (N : nat) (m : list T),
    length m = (M * N) -> returns (mat_get_abs_max M N m) (fun _ => True)) /\
  (forall (M : nat) (N : nat) (m : list T),
    length m = (M * N) -> returns (mat_nnz M N m) (fun _ => True)) /\
  (forall (M : nat) (N : nat) (m : list T) (thr : T),
    length m = (M * N) -> returns (mat_nnz_thr M N m thr) (fun _ => True)) /\
  (forall (M : nat) (N : nat) (m : list T) (thr : sref T),
    length m = (M * N) -> sref_of (M * N) thr -> returns (mat_threshold M N m thr) (fun r => length r = (M * N))) /\
  (forall (rnd : Z -> nat -> Z) (RAND_MAX : Z) (ofZ : Z -> T) (M : nat) (N : nat) (m : list T) (seed : Z) (st : rng),
    total_ops -> length m = (M * N) -> returns (mat_set_random rnd RAND_MAX ofZ M N m seed st) (fun r => length (fst r) = (M * N))) /\
  (forall (n : nat) (k : nat) (m : list T) (kernel : list T),
    length m = (n * n) -> length kernel = (k * k) -> returns (mat_convolve n n k k m kernel) (fun r => length r = (n * n))) /\
  (forall (m : list T),
    length m = 1 -> returns (mat_det1 m) (fun _ => True)) /\
  (forall (m : list T),
    length m = 4 -> returns (mat_det2 m) (fun _ => True)) /\
  (forall (m : list T),
    length m = 9 -> returns (mat_det3 m) (fun _ => True)) /\
  (forall (m : list T),
    length m = 16 -> returns (mat_det4 m) (fun _ => True)) /\
  (forall (n : nat) (m : list T),
    length m = (n * n) -> 1 <= n <= 4 -> returns (mat_det n m) (fun _ => True)) /\
  (forall (n : nat) (m : list T) (minor : list T) (rcut : nat) (ccut : nat),
    length m = (n * n) -> length minor = ((n - 1) * (n - 1)) -> rcut < n -> ccut < n -> 2 <= n <= 5 -> returns (mat_get_minor n m minor rcut ccut) (fun r => length (snd r) = ((n - 1) * (n - 1)))) /\
  (forall (n : nat) (m : arg T) (cof : list T),
    arg_of (n * n) (n * n) m -> length cof = (n * n) -> 2 <= n <= 5 -> returns (mat_get_cofactors n m cof) (fun r => length r = (n * n))) /\
  (forall (n : nat) (m : arg T) (adj : list T),
    arg_of (n * n) (n * n) m -> length adj = (n * n) -> 2 <= n <= 5 -> returns (mat_get_adjugate n m adj) (fun r => length r = (n * n))) /\
  (forall (m : arg T) (inv : list T) (tol : T),
    total_ops -> arg_of 4 4 m -> length inv = 4 -> returns (mat_inverse2 m inv tol) (fun r => length (snd r) = 4)) /\
  (forall (m : arg T) (inv : list T) (r : nat) (c : nat) (a0 : nat) (a1 : nat) (b0 : nat) (b1 : nat) (c0 : nat) (c1 : nat) (d0 : nat) (d1 : nat),
    arg_of 9 9 m -> length inv = 9 -> r < 3 -> c < 3 -> a0 < 3 -> a1 < 3 -> b0 < 3 -> b1 < 3 -> c0 < 3 -> c1 < 3 -> d0 < 3 -> d1 < 3 -> returns (mat_cof3 m inv r c a0 a1 b0 b1 c0 c1 d0 d1) (fun r => length r = 9)) /\
  (forall (m : arg T) (inv : list T) (tol : T),
    total_ops -> arg_of 9 9 m -> length inv = 9 -> returns (mat_inverse3 m inv tol) (fun r => length (snd r) = 9)) /\
  (forall (m : list T) (inv : list T) (tol : T),
    total_ops -> length m = 16 -> length inv = 16 -> returns (mat_inverse4 m inv tol) (fun r => length (snd r) = 16)) /\
  (forall (n : nat) (m : list T) (inv : list T) (tol : T),
    total_ops -> length m = (n * n) -> length inv = (n * n) -> 2 <= n <= 4 -> returns (mat_inverse n m inv tol) (fun r => length (snd r) = (n * n))) /\
  (forall (m : list T) (limit : T),
    length m = 9 -> returns (mat_is_pd3 m limit) (fun _ => True)) /\
  (forall (m : list T) (angle : T) (axis : list T),
    length m = 16 -> length axis = 3 -> returns (mat_rotate m angle axis) (fun r => length r = 16)) /\
  (forall (i : nat) (j : nat) (cosine : T) (sine : T) (m : list T),
    i < length m -> j < length m -> returns (rot_pair i j cosine sine m) (fun r => length r = (length m))) /\
  (forall (i : nat) (j : nat) (cosine : T) (sine : T) (m : list T),
    i < length m -> j < length m -> returns (rot_pair_y i j cosine sine m) (fun r => length r = (length m))) /\
  (forall (i : nat) (j : nat) (cosine : T) (sine : T) (m : list T),
    i < length m -> j < length m -> returns (pre_pair i j cosine sine m) (fun r => length r = (length m))) /\
  (forall (i : nat) (j : nat) (cosine : T) (sine : T) (m : list T),
    i < length m -> j < length m -> returns (pre_pair_y i j cosine sine m) (fun r => length r = (length m))) /\
  (forall (m : list T) (angle : T),
    length m = 16 -> returns (mat_rotate_x m angle) (fun r => length r = 16)) /\
  (forall (m : list T) (angle : T),
    length m = 16 -> returns (mat_rotate_y m angle) (fun r => length r = 16)) /\
  (forall (m : list T) (angle : T),
    length m = 16 -> returns (mat_rotate_z m angle) (fun r => length r = 16)) /\
  (forall (m : list T) (angle : T),
    length m = 16 -> returns (mat_pre_rotate_x m angle) (fun r => length r = 16)) /\
  (forall (m : list T) (angle : T),
    length m = 16 -> returns (mat_pre_rotate_y m angle) (fun r => length r = 16)) /\
  (forall (m : list T) (angle : T),
    length m = 16 -> returns (mat_pre_rotate_z m angle) (fun r => length r = 16)) /\
  (forall (m : list T) (v : list T),
    length m = 16 -> length v = 3 -> returns (mat_scale m v) (fun r => length r = 16)) /\
  (forall (m : list T) (v : list T),
    length m = 16 -> length v = 3 -> returns (mat_scale_translation m v) (fun r => length r = 16)) /\
  (forall (m : list T) (t : list T),
    length m = 16 -> length t = 3 -> returns (mat_set_translation m t) (fun r => length r = 16)) /\
  (forall (M : nat) (N : nat) (m : list T),
    length m = (M * N) -> N - 1 <= M -> 0 < N -> returns (mat_get_translation M N m) (fun r => length r = (N - 1))) /\
  (forall (m : list T),
    length m = 16 -> returns (mat_x m) (fun _ => True)) /\
  (forall (m : list T),
    length m = 16 -> returns (mat_y m) (fun _ => True)) /\
  (forall (m : list T),
    length m = 16 -> returns (mat_z m) (fun _ => True)) /\
  (forall (M : nat) (N : nat) (O : nat) (m : list T) (v : list T),
    total_ops -> length m = (M * N) -> length v = O -> N <= M + 1 -> N = O + 1 -> returns (mat_mul_hom M N O m v) (fun r => length r = O)) /\
  (forall (t : list T),
    length t = 3 -> returns (util_create_translation t) (fun r => length r = 16)) /\
  (forall (m : list T) (t0 : T) (t1 : T) (t2 : T),
    length m = 16 -> returns (util_apply_translation m t0 t1 t2) (fun r => length r = 16)) /\
  (forall (angle : T) (axis : list T),
    length axis = 3 -> returns (util_create_rotation angle axis) (fun r => length r = 16)) /\
  (forall (m : list T) (angle : T) (t0 : T) (t1 : T) (t2 : T),
    length m = 16 -> returns (util_apply_rotation m angle t0 t1 t2) (fun r => length r = 16)) /\
  (forall (v : list T),
    length v = 3 -> returns (util_create_scaling v) (fun r => length r = 16)) /\
  (forall (x : T),
    returns (util_create_scaling_s x) (fun r => length r = 16)) /\
  (forall (M : nat) (N : nat) (m0 : list T) (m1 : list T),
    length m0 = (M * N) -> length m1 = (M * N) -> returns (fun_eq_inv_rows M N m0 m1) (fun _ => True)) /\
  (forall (M : nat) (N : nat) (m0 : list T) (m1 : list T) (tol : T),
    length m0 = (M * N) -> length m1 = (M * N) -> returns (fun_eq_inv_rows_tol M N m0 m1 tol) (fun _ => True)) /\
  (forall (M : nat) (N : nat) (m0 : list T) (m1 : list T),
    length m0 = (M * N) -> length m1 = (M * N) -> returns (fun_eq_inv_cols M N m0 m1) (fun _ => True)) /\
  (forall (M : nat) (N : nat) (m0 : list T) (m1 : list T) (tol : T),
    length m0 = (M * N) -> length m1 = (M * N) -> returns (fun_eq_inv_cols_tol M N m0 m1 tol) (fun _ => True)) /\
  (forall (n : nat) (m : list T) (row : nat) (col : nat),
    length m = (n * n) -> row < n -> col < n -> returns (traits_r n n m row col) (fun _ => True)) /\
  (forall (n : nat) (m : list T) (row : nat) (col : nat) (x : T),
    length m = (n * n) -> row < n -> col < n -> returns (traits_w n n m row col x) (fun r => length r = (n * n))) /\
  (forall (v : list T) (i : nat),
    i < (length v) -> returns (vtraits_r v i) (fun _ => True)) /\
  (forall (v : list T) (i : nat) (x : T),
    i < (length v) -> returns (vtraits_w v i x) (fun r => length r = (length v))) /\
  (forall (n : nat) (m : list T),
    length m = (n * n) -> returns (mat_transpose_to_self n m) (fun r => length r = (n * n))) /\
  (forall (n : nat) (m : list T),
    length m = (n * n) -> returns (mat_sym_cov_self n m) (fun r => length r = (n * n))) /\
  (forall (m : arg T) (inv : list T) (k : nat) (p : nat) (q : nat) (r : nat) (x : T) (y : T) (z : T) (plus : bool),
    arg_of 16 16 m -> length inv = 16 -> k < 16 -> p < 16 -> q < 16 -> r < 16 -> returns (inv4_line m inv k p q r x y z plus) (fun r => length r = 16)) /\
  (forall (v : list T) (p : nat) (q : nat) (r : nat) (s : nat),
    length v = 16 -> p < 16 -> q < 16 -> r < 16 -> s < 16 -> returns (inv4_det v p q r s) (fun _ => True)) /\
  (forall (m : arg T) (inv : list T) (tol : T),
    total_ops -> arg_of 16 16 m -> length inv = 16 -> returns (mat_inverse4_arg m inv tol) (fun r => length (snd r) = 16)) /\
  (forall (n : nat) (m : list T) (tol : T),
    total_ops -> length m = (n * n) -> 2 <= n <= 4 -> returns (mat_inverse_self n m tol) (fun r => length (snd r) = (n * n))) /\
  (forall (M : nat) (v : list T) (mn : sref T) (mx : sref T),
    length v = M -> sref_of M mn -> sref_of M mx -> returns (vec_clamp_ref M v mn mx) (fun r => length r = M)).
Proof.
  repeat match goal with |- _ /\ _ => split end.
  - exact sf_mat_at.
  - exact sf_mat_put.
  - exact sf_mat_sq_at.
  - exact sf_mat_sq_put.
  - exact sf_mat_fill.
  - exact sf_mat_zero.
  - exact sf_mat_assign_value.
  - exact sf_mat_default.
  - exact sf_mat_identity.
  - exact sf_mat_IDENTITY.
  - exact sf_mat_ZERO.
  - exact sf_mat_assign.
  - intros U. exact (@sf_mat_assign_resize U).
  - exact sf_mat_assign_2d.
  - exact sf_mat_set_rm.
  - exact sf_mat_set_cm.
  - exact sf_mat_assign_ptr.
  - exact sf_mat_assign_vector.
  - intros U. exact (@sf_mat_cast_from U).
  - exact sf_mat_eq.
  - exact sf_mat_neq.
  - exact sf_mat_equals_by.
  - exact sf_mat_equals.
  - exact sf_mat_mul_piecewise.
  - exact sf_mat_multiply.
  - exact sf_mat_mul.
  - exact sf_mat_mul_assign.
  - exact sf_mat_div_s.
  - exact sf_mat_mul_s.
  - exact sf_mat_div_assign_s.
  - exact sf_mat_mul_assign_s.
  - exact sf_mat_iter_zip.
  - exact sf_mat_add_assign.
  - exact sf_mat_sub_assign.
  - exact sf_mat_iter_map.
  - exact sf_mat_add_assign_s.
  - exact sf_mat_sub_assign_s.
  - exact sf_mat_add.
  - exact sf_mat_sub.
  - exact sf_mat_mul_vec.
  - exact sf_mat_negate.
  - exact sf_mat_tensor_sq.
  - exact sf_mat_tensor34.
  - exact sf_mat_transpose_to.
  - exact sf_mat_transpose.
  - exact sf_mat_sym_cov.
  - exact sf_mat_get_column_into.
  - exact sf_mat_get_column.
  - exact sf_mat_set_column.
  - exact sf_mat_get_row_into.
  - exact sf_mat_get_row.
  - exact sf_mat_set_row.
  - exact sf_mat_get_sub.
  - exact sf_mat_sub_matrix.
  - exact sf_mat_set_sub.
  - exact sf_mat_direct_sum.
  - exact sf_mat_khatri_rao.
  - exact sf_mat_kronecker.
  - exact sf_mat_diag.
  - exact sf_mat_frobenius.
  - exact sf_mat_sum_elements.
  - exact sf_mat_columnwise_sum.
  - exact sf_mat_sum_rows.
  - exact sf_mat_sum_columns.
  - exact sf_mat_get_min.
  - exact sf_mat_get_max.
  - exact sf_mat_get_abs_min.
  - exact sf_mat_get_abs_max.
  - exact sf_mat_nnz.
  - exact sf_mat_nnz_thr.
  - exact sf_mat_threshold.
  - exact sf_mat_set_random.
  - exact sf_mat_convolve_sq.
  - exact sf_mat_det1.
  - exact sf_mat_det2.
  - exact sf_mat_det3.
  - exact sf_mat_det4.
  - exact sf_mat_det.
  - exact sf_mat_get_minor.
  - exact sf_mat_get_cofactors.
  - exact sf_mat_get_adjugate.
  - exact sf_mat_inverse2.
  - exact sf_mat_cof3.
  - exact sf_mat_inverse3.
  - exact sf_mat_inverse4.
  - exact sf_mat_inverse.
  - exact sf_mat_is_pd3.
  - exact sf_mat_rotate.
  - exact sf_rot_pair.
  - exact sf_rot_pair_y.
  - exact sf_pre_pair.
  - exact sf_pre_pair_y.
  - exact sf_mat_rotate_x.
  - exact sf_mat_rotate_y.
  - exact sf_mat_rotate_z.
  - exact sf_mat_pre_rotate_x.
  - exact sf_mat_pre_rotate_y.
  - exact sf_mat_pre_rotate_z.
  - exact sf_mat_scale.
  - exact sf_mat_scale_translation.
  - exact sf_mat_set_translation.
  - exact sf_mat_get_translation.
  - exact sf_mat_x.
  - exact sf_mat_y.
  - exact sf_mat_z.
  - exact sf_mat_mul_hom.
  - exact sf_util_create_translation.
  - exact sf_util_apply_translation.
  - exact sf_util_create_rotation.
  - exact sf_util_apply_rotation.
  - exact sf_util_create_scaling.
  - exact sf_util_create_scaling_s.
  - exact sf_fun_eq_inv_rows.
  - exact sf_fun_eq_inv_rows_tol.
  - exact sf_fun_eq_inv_cols.
  - exact sf_fun_eq_inv_cols_tol.
  - exact sf_traits_r_sq.
  - exact sf_traits_w_sq.
  - exact sf_vtraits_r.
  - exact sf_vtraits_w.
  - exact sf_mat_transpose_to_self.
  - exact sf_mat_sym_cov_self.
  - exact sf_inv4_line.
  - exact sf_inv4_det.
  - exact sf_mat_inverse4_arg.
  - exact sf_mat_inverse_self.
  - exact sf_vec_clamp_ref.
Qed.

(** C112: quaternions, boxes, frusta, cullers, rays, QR, filters, streams. *)
Theorem C112_calls_return_rest :
  (returns (q_default) (fun r => length r = 4)) /\
  (forall (xyz : list T) (w : T),
    length xyz = 3 -> returns (q_of_vec_w xyz w) (fun r => length r = 4)) /\
  (forall (xyz : list T),
    length xyz = 3 -> returns (q_of_vec xyz) (fun r => length r = 4)) /\
  (forall (q : list T) (xyz : list T) (w : T),
    length q = 4 -> length xyz = 3 -> returns (q_set_vec q xyz w) (fun r => length r = 4)) /\
  (forall (q : list T) (o : arg T),
    length q = 4 -> arg_of 4 4 o -> returns (q_assign q o) (fun r => length r = 4)) /\
  (forall (q : list T),
    length q = 4 -> returns (q_zero q) (fun r => length r = 4)) /\
  (forall (q : list T),
    length q = 4 -> returns (q_identity q) (fun r => length r = 4)) /\
  (forall (q : list T) (a : T),
    length q = 4 -> returns (q_eq_s q a) (fun _ => True)) /\
  (forall (q : list T) (a : T),
    length q = 4 -> returns (q_neq_s q a) (fun _ => True)) /\
  (forall (q : list T) (p : list T),
    length q = 4 -> length p = 4 -> returns (q_eq q p) (fun _ => True)) /\
  (forall (q : list T) (p : list T),
    length q = 4 -> length p = 4 -> returns (q_neq q p) (fun _ => True)) /\
  (forall (q : list T) (p : list T) (delta : T),
    length q = 4 -> length p = 4 -> returns (q_is_akin q p delta) (fun _ => True)) /\
  (forall (q : list T),
    length q = 4 -> returns (q_conjugate q) (fun r => length r = 4)) /\
  (forall (q : list T),
    length q = 4 -> returns (q_get_conjugate q) (fun r => length r = 4)) /\
  (forall (q : list T),
    length q = 4 -> returns (q_squared_abs q) (fun _ => True)) /\
  (forall (q : list T),
    total_ops -> length q = 4 -> returns (q_abs q) (fun _ => True)) /\
  (forall (q : list T) (a : T),
    length q = 4 -> returns (q_mul_s q a) (fun r => length r = 4)) /\
  (forall (q : list T) (a : T),
    length q = 4 -> returns (q_mul_assign_s q a) (fun r => length r = 4)) /\
  (forall (q : list T) (a : T),
    total_ops -> length q = 4 -> seqb a szero = false -> returns (q_div_s q a) (fun r => length r = 4)) /\
  (forall (q : list T) (a : T),
    total_ops -> length q = 4 -> seqb a szero = false -> returns (q_div_assign_s q a) (fun r => length r = 4)) /\
  (forall (q : list T),
    total_ops -> length q = 4 -> returns (q_inverse q) (fun r => length r = 4)) /\
  (forall (q : list T),
    total_ops -> length q = 4 -> returns (q_normalize q) (fun r => length (snd r) = 4)) /\
  (forall (q : list T),
    total_ops -> length q = 4 -> returns (q_get_normalized q) (fun r => length r = 4)) /\
  (forall (q : list T) (p : list T),
    length q = 4 -> length p = 4 -> returns (q_add q p) (fun r => length r = 4)) /\
  (forall (q : list T) (p : list T),
    length q = 4 -> length p = 4 -> returns (q_sub q p) (fun r => length r = 4)) /\
  (forall (q : list T) (p : arg T),
    length q = 4 -> arg_of 4 4 p -> returns (q_add_assign q p) (fun r => length r = 4)) /\
  (forall (q : list T) (p : arg T),
    length q = 4 -> arg_of 4 4 p -> returns (q_sub_assign q p) (fun r => length r = 4)) /\
  (forall (q : list T),
    length q = 4 -> returns (q_neg q) (fun r => length r = 4)) /\
  (forall (q : list T) (o : arg T),
    length q = 4 -> arg_of 4 4 o -> returns (q_mul_assign q o) (fun r => length r = 4)) /\
  (forall (q : list T) (p : list T),
    length q = 4 -> length p = 4 -> returns (q_mul q p) (fun r => length r = 4)) /\
  (forall (q : list T) (a : list T),
    length q = 4 -> length a = 3 -> returns (q_add_vec q a) (fun r => length r = 4)) /\
  (forall (q : list T) (a : list T),
    length q = 4 -> length a = 3 -> returns (q_sub_vec q a) (fun r => length r = 4)) /\
  (forall (q : list T) (a : list T),
    length q = 4 -> length a = 3 -> returns (q_mul_vec q a) (fun r => length r = 4)) /\
  (forall (q : list T) (a : list T),
    length q = 4 -> length a = 3 -> returns (q_add_assign_vec q a) (fun r => length r = 4)) /\
  (forall (q : list T) (a : list T),
    length q = 4 -> length a = 3 -> returns (q_sub_assign_vec q a) (fun r => length r = 4)) /\
  (forall (q : list T) (a : list T),
    length q = 4 -> length a = 3 -> returns (q_mul_assign_vec q a) (fun r => length r = 4)) /\
  (forall (q : list T) (p : list T),
    length q = 4 -> length p = 4 -> returns (q_cross q p) (fun r => length r = 3)) /\
  (forall (q : list T) (p : list T),
    length q = 4 -> length p = 4 -> returns (q_dot q p) (fun _ => True)) /\
  (forall (D : nat) (q : list T) (m : list T),
    length q = 4 -> length m = (D * D) -> 3 <= D -> returns (q_get_rotation_matrix_into D q m) (fun r => length r = (D * D))) /\
  (forall (q : list T),
    length q = 4 -> returns (q_get_rotation_matrix q) (fun r => length r = 9)) /\
  (forall (D : nat) (q : list T) (m : list T),
    total_ops -> length q = 4 -> length m = (D * D) -> 3 <= D -> returns (q_set_matrix D q m) (fun r => length r = 4)) /\
  (forall (a : T) (p : list T) (q : list T) (epsilon : T),
    total_ops -> length p = 4 -> length q = 4 -> returns (q_slerp a p q epsilon) (fun r => length r = 4)) /\
  (forall (q : list T) (aa : list T) (bb : list T) (cc : list T) (dd : list T),
    total_ops -> length q = 4 -> length aa = 4 -> length bb = 4 -> length cc = 4 -> length dd = 4 -> returns (q_normal4 q aa bb cc dd) (fun r => length r = 4)) /\
  (forall (q : list T) (aa : list T) (bb : list T) (cc : list T),
    total_ops -> length q = 4 -> length aa = 4 -> length bb = 4 -> length cc = 4 -> returns (q_normal3 q aa bb cc) (fun r => length r = 4)) /\
  (returns (box_default) two3) /\
  (forall (pMin : list T) (pMax : list T),
    length pMin = 3 -> length pMax = 3 -> returns (box_make pMin pMax) two3) /\
  (forall (cx : T) (cy : T) (cz : T) (size : T),
    returns (box_ctor_center cx cy cz size) two3) /\
  (forall (b : list T * list T) (pos : list T),
    two3 b -> length pos = 3 -> returns (box_isIn b pos) (fun _ => True)) /\
  (forall (b : list T * list T) (pos : list T),
    two3 b -> length pos = 2 -> returns (box_isIn2d b pos) (fun _ => True)) /\
  (forall (b : list T * list T) (pMin : list T) (pMax : list T),
    two3 b -> length pMin = 3 -> length pMax = 3 -> returns (box_set b pMin pMax) two3) /\
  (forall (b : list T * list T) (cx : T) (cy : T) (cz : T) (size : T),
    two3 b -> returns (box_set_center b cx cy cz size) two3) /\
  (forall (b : list T * list T) (pMin : list T),
    two3 b -> length pMin = 3 -> returns (box_setMin b pMin) two3) /\
  (forall (b : list T * list T) (pMax : list T),
    two3 b -> length pMax = 3 -> returns (box_setMax b pMax) two3) /\
  (forall (b : list T * list T) (x : T),
    two3 b -> returns (box_mul_assign b x) two3) /\
  (forall (b : list T * list T) (x : T),
    total_ops -> two3 b -> returns (box_div_assign b x) two3) /\
  (forall (b : list T * list T) (x : T),
    two3 b -> returns (box_add_assign b x) two3) /\
  (forall (b : list T * list T) (x : T),
    two3 b -> returns (box_sub_assign b x) two3) /\
  (forall (b : list T * list T) (x : T),
    two3 b -> returns (box_mul b x) two3) /\
  (forall (b : list T * list T) (x : T),
    total_ops -> two3 b -> returns (box_div b x) two3) /\
  (forall (b : list T * list T) (x : T),
    two3 b -> returns (box_add b x) two3) /\
  (forall (b : list T * list T) (x : T),
    two3 b -> returns (box_sub b x) two3) /\
  (forall (b : list T * list T),
    two3 b -> returns (box_getCenter b) (fun r => length r = 3)) /\
  (forall (b : list T * list T),
    two3 b -> returns (box_getDimension b) (fun r => length r = 3)) /\
  (forall (i : nat) (a : list T) (m : list T),
    i < 3 -> length a = 3 -> length m = 3 -> returns (keep_lt i a m) (fun r => length r = 3)) /\
  (forall (i : nat) (a : list T) (m : list T),
    i < 3 -> length a = 3 -> length m = 3 -> returns (keep_gt i a m) (fun r => length r = 3)) /\
  (forall (b : list T * list T) (o : list T * list T),
    two3 b -> two3 o -> returns (box_merge b o) two3) /\
  (forall (b : list T * list T) (p : list T),
    two3 b -> length p = 3 -> returns (box_merge_point b p) two3) /\
  (forall (b : list T * list T),
    two3 b -> returns (box_setEmpty b) two3) /\
  (forall (b : list T * list T),
    two3 b -> returns (box_isEmpty b) (fun _ => True)) /\
  (returns (box_unit) two3) /\
  (forall (fr : list T),
    length fr = 6 -> returns (fr_left fr) (fun _ => True)) /\
  (forall (fr : list T),
    length fr = 6 -> returns (fr_right fr) (fun _ => True)) /\
  (forall (fr : list T),
    length fr = 6 -> returns (fr_bottom fr) (fun _ => True)) /\
  (forall (fr : list T),
    length fr = 6 -> returns (fr_top fr) (fun _ => True)) /\
  (forall (fr : list T),
    length fr = 6 -> returns (fr_near fr) (fun _ => True)) /\
  (forall (fr : list T),
    length fr = 6 -> returns (fr_far fr) (fun _ => True)) /\
  (forall (fr : list T) (l : T) (r : T) (b : T) (t : T) (n : T) (f : T),
    length fr = 6 -> returns (fr_set fr l r b t n f) (fun r => length r = 6)) /\
  (returns (fr_DEFAULT) (fun r => length r = 6)) /\
  (forall (values : list T),
    6 <= length values -> returns (fr_of_values values) (fun r => length r = 6)) /\
  (forall (fr : list T) (o : arg T),
    length fr = 6 -> arg_of 6 6 o -> returns (fr_assign fr o) (fun r => length r = 6)) /\
  (forall (fr : list T) (new_near : T),
    total_ops -> length fr = 6 -> returns (fr_adjust_near fr new_near) (fun r => length r = 6)) /\
  (forall (fr : list T) (fov_y : T) (aspect : T) (near : T) (far : T),
    total_ops -> length fr = 6 -> returns (fr_set_perspective fr fov_y aspect near far) (fun r => length r = 6)) /\
  (forall (fr : list T) (m : list T),
    total_ops -> length fr = 6 -> length m = 16 -> returns (fr_compute_matrix_into fr m) (fun r => length r = 16)) /\
  (forall (fr : list T),
    total_ops -> length fr = 6 -> returns (fr_compute_matrix fr) (fun r => length r = 16)) /\
  (forall (fr : list T) (m : list T),
    total_ops -> length fr = 6 -> length m = 16 -> returns (fr_compute_ortho_matrix_into fr m) (fun r => length r = 16)) /\
  (forall (fr : list T),
    total_ops -> length fr = 6 -> returns (fr_compute_ortho_matrix fr) (fun r => length r = 16)) /\
  (forall (fr : list T) (j : list T),
    length fr = 6 -> length j = 2 -> returns (fr_apply_jitter fr j) (fun r => length r = 6)) /\
  (forall (fr : list T),
    length fr = 6 -> returns (fr_get_width fr) (fun _ => True)) /\
  (forall (fr : list T),
    length fr = 6 -> returns (fr_get_height fr) (fun _ => True)) /\
  (forall (plane : list T),
    total_ops -> length plane = 4 -> returns (fc_normalize_plane plane) (fun r => length r = 4)) /\
  (forall (m : list T),
    total_ops -> length m = 16 -> returns (fc_setup m) planes4) /\
  (forall (a : list T) (b : list T) (c : list T) (d : list T) (e : list T) (f : list T) (g : list T) (h : list T),
    total_ops -> length a = 3 -> length b = 3 -> length c = 3 -> length d = 3 -> length e = 3 -> length f = 3 -> length g = 3 -> length h = 3 -> returns (fc_setup_corners a b c d e f g h) planes4) /\
  (forall (plane : list T) (sphere : list T) (vis : visibility),
    length plane = 4 -> length sphere = 4 -> returns (fc_sphere_step plane sphere vis) (fun _ => True)) /\
  (forall (c : @culler T) (sphere : list T),
    planes4 c -> length sphere = 4 -> returns (fc_test_sphere c sphere) (fun _ => True)) /\
  (forall (plane : list T) (middle : list T) (extent : list T),
    length plane = 4 -> length middle = 3 -> length extent = 3 -> returns (fc_test_plane plane middle extent) (fun _ => True)) /\
  (forall (c : @culler T) (x : list T) (y : list T) (z : list T),
    planes4 c -> length x = 2 -> length y = 2 -> length z = 2 -> returns (fc_test_aabb c x y z) (fun _ => True)) /\
  (forall (origin : list T) (direction : list T),
    total_ops -> length origin = 3 -> length direction = 3 -> returns (ray_make origin direction) two3) /\
  (forall (ry : list T * list T) (sphere : list T) (t : T),
    total_ops -> two3 ry -> length sphere = 4 -> returns (ray_test_sphere ry sphere t) (fun _ => True)) /\
  (forall (M : nat) (N : nat) (A : list T) (j : nat) (i : nat) (st : @qr_state T),
    length A = (M * N) -> j < N -> i < M -> qr_sized M N st -> i < N -> returns (qr_inner M N A j i st) (qr_sized M N)) /\
  (forall (M : nat) (N : nat) (A : list T) (j : nat) (st : @qr_state T),
    total_ops -> length A = (M * N) -> j < N -> qr_sized M N st -> N <= M -> returns (qr_column M N A j st) (qr_sized M N)) /\
  (forall (M : nat) (N : nat) (A : list T) (Q : list T) (R' : list T),
    total_ops -> length A = (M * N) -> length Q = (M * M) -> length R' = (N * N) -> N <= M -> returns (qr_decompose M N A Q R') (fun r => length (fst r) = (M * M) /\ length (snd r) = (N * N))) /\
  (forall (M : nat) (f : lowpass T) (value : T),
    0 < M -> returns (lp_add M f value) (fun _ => True)) /\
  (forall (a : T) (b : T),
    total_ops -> returns (math_pythag a b) (fun _ => True)) /\
  (forall (M : nat) (v : list T) (os : list ascii),
    length v = M -> returns (vec_write M v os) (fun _ => True)) /\
  (forall (M : nat) (v : list T) (is : istream),
    length v = M -> returns (vec_read M v is) (fun r => length (fst r) = M)) /\
  (forall (M : nat) (N : nat) (m : list T) (os : list ascii),
    length m = (M * N) -> returns (mat_write M N m os) (fun _ => True)) /\
  (forall (M : nat) (N : nat) (m : list T) (is : istream),
    length m = (M * N) -> returns (mat_read M N m is) (fun r => length (fst r) = (M * N))).
Proof.
  repeat match goal with |- _ /\ _ => split end.
  - exact sf_q_default.
  - exact sf_q_of_vec_w.
  - exact sf_q_of_vec.
  - exact sf_q_set_vec.
  - exact sf_q_assign.
  - exact sf_q_zero.
  - exact sf_q_identity.
  - exact sf_q_eq_s.
  - exact sf_q_neq_s.
  - exact sf_q_eq.
  - exact sf_q_neq.
  - exact sf_q_is_akin.
  - exact sf_q_conjugate.
  - exact sf_q_get_conjugate.
  - exact sf_q_squared_abs.
  - exact sf_q_abs.
  - exact sf_q_mul_s.
  - exact sf_q_mul_assign_s.
  - exact sf_q_div_s.
  - exact sf_q_div_assign_s.
  - exact sf_q_inverse.
  - exact sf_q_normalize.
  - exact sf_q_get_normalized.
  - exact sf_q_add.
  - exact sf_q_sub.
  - exact sf_q_add_assign.
  - exact sf_q_sub_assign.
  - exact sf_q_neg.
  - exact sf_q_mul_assign.
  - exact sf_q_mul.
  - exact sf_q_add_vec.
  - exact sf_q_sub_vec.
  - exact sf_q_mul_vec.
  - exact sf_q_add_assign_vec.
  - exact sf_q_sub_assign_vec.
  - exact sf_q_mul_assign_vec.
  - exact sf_q_cross.
  - exact sf_q_dot.
  - exact sf_q_get_rotation_matrix_into.
  - exact sf_q_get_rotation_matrix.
  - exact sf_q_set_matrix.
  - exact sf_q_slerp.
  - exact sf_q_normal4.
  - exact sf_q_normal3.
  - exact sf_box_default.
  - exact sf_box_make.
  - exact sf_box_ctor_center.
  - exact sf_box_isIn.
  - exact sf_box_isIn2d.
  - exact sf_box_set.
  - exact sf_box_set_center.
  - exact sf_box_setMin.
  - exact sf_box_setMax.
  - exact sf_box_mul_assign.
  - exact sf_box_div_assign.
  - exact sf_box_add_assign.
  - exact sf_box_sub_assign.
  - exact sf_box_mul.
  - exact sf_box_div.
  - exact sf_box_add.
  - exact sf_box_sub.
  - exact sf_box_getCenter.
  - exact sf_box_getDimension.
  - exact sf_keep_lt.
  - exact sf_keep_gt.
  - exact sf_box_merge.
  - exact sf_box_merge_point.
  - exact sf_box_setEmpty.
  - exact sf_box_isEmpty.
  - exact sf_box_unit.
  - exact sf_fr_left.
  - exact sf_fr_right.
  - exact sf_fr_bottom.
  - exact sf_fr_top.
  - exact sf_fr_near.
  - exact sf_fr_far.
  - exact sf_fr_set.
  - exact sf_fr_DEFAULT.
  - exact sf_fr_of_values.
  - exact sf_fr_assign.
  - exact sf_fr_adjust_near.
  - exact sf_fr_set_perspective.
  - exact sf_fr_compute_matrix_into.
  - exact sf_fr_compute_matrix.
  - exact sf_fr_compute_ortho_matrix_into.
  - exact sf_fr_compute_ortho_matrix.
  - exact sf_fr_apply_jitter.
  - exact sf_fr_get_width.
  - exact sf_fr_get_height.
  - exact sf_fc_normalize_plane.
  - exact sf_fc_setup.
  - exact sf_fc_setup_corners.
  - exact sf_fc_sphere_step.
  - exact sf_fc_test_sphere.
  - exact sf_fc_test_plane.
  - exact sf_fc_test_aabb.
  - exact sf_ray_make.
  - exact sf_ray_test_sphere.
  - exact sf_qr_inner.
  - exact sf_qr_column.
  - exact sf_qr_decompose.
  - exact sf_lp_add.
  - exact sf_math_pythag.
  - exact sf_vec_write.
  - exact sf_vec_read.
  - exact sf_mat_write.
  - exact sf_mat_read.
Qed.

End Safe.

(** The hypotheses are met: IEEE doubles have a total division and square root,
    and normalizing a 3-vector that holds a NaN and an infinity, inverting the
    zero 4x4 matrix and writing through an operand that is the object itself
    are covered calls. *)
Example C112_hypotheses_met_doubles : @total_ops InstF.f64 InstF.F64Scalar.
Proof. split; intros; eexists; reflexivity. Qed.
Example C112_hypotheses_met :
  forall cfg : Cfg,
  returns (@vec_normalize cfg InstF.f64 InstF.F64Scalar 3 [InstF.f64_nan; InstF.f64_inf; InstF.f64_zero])
          (fun r => length (snd r) = 3) /\
  returns (@mat_mul_assign cfg InstF.f64 InstF.F64Scalar 4 (repeat InstF.f64_nan 16) Self) (fun r => length r = 16) /\
  returns (@mat_get_column cfg InstF.f64 InstF.F64Scalar 4 4 (repeat InstF.f64_nan 16) 3) (fun r => length r = 4).
Proof.
  intros cfg. split; [|split].
  - apply sf_vec_normalize; [exact C112_hypotheses_met_doubles|reflexivity].
  - apply sf_mat_mul_assign; reflexivity.
  - apply sf_mat_get_column; [reflexivity|lia].
Qed.

Print Assumptions C112_calls_return_vector.
Print Assumptions C112_calls_return_matrix.
Print Assumptions C112_calls_return_rest.
