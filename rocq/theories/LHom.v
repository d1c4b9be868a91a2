(** Changing the element type: if two element types are related by a relation
    that respects zero, one, +, -, * and unary minus, then so are the results of
    every operation that uses only these (no division, root or comparison). *)
From Verif Require Export MVector MMatrix MQuaternion.
Local Open Scope nat_scope.

Class RelC (A B : Type) := relc : A -> B -> Prop.
Definition rel_res {A B} (P : RelC A B) (m : res A) (n : res B) : Prop :=
  match m, n with
  | Ok a, Ok b => relc a b
  | Throw, Throw | UB, UB | NonFin, NonFin => True
  | _, _ => False
  end.
#[export] Instance relc_nat : RelC nat nat := eq.
#[export] Instance relc_bool : RelC bool bool := eq.
#[export] Instance relc_unit : RelC unit unit := eq.
#[export] Instance relc_list {A B} (P : RelC A B) : RelC (list A) (list B) := Forall2 P.
#[export] Instance relc_prod {A B C D} (P : RelC A B) (Q : RelC C D) : RelC (A * C) (B * D) :=
  fun x y => relc (fst x) (fst y) /\ relc (snd x) (snd y).
#[export] Instance relc_sum {A B C D} (P : RelC A B) (Q : RelC C D) : RelC (A + C) (B + D) :=
  fun x y => match x, y with inl a, inl b => relc a b | inr a, inr b => relc a b | _, _ => False end.
#[export] Instance relc_arg {A B} (P : RelC A B) : RelC (arg A) (arg B) :=
  fun x y => match x, y with Val a, Val b => relc a b | Self, Self => True | _, _ => False end.

Lemma rel_ok {A B} (P : RelC A B) a b : relc a b -> rel_res P (Ok a) (Ok b).
Proof. intros H; exact H. Qed.
Lemma rel_bind {A B C D} (P : RelC A B) (Q : RelC C D) (m : res A) (n : res B) (k : A -> res C) (h : B -> res D) :
  rel_res P m n -> (forall a b, relc a b -> rel_res Q (k a) (h b)) -> rel_res Q (bind m k) (bind n h).
Proof. destruct m, n; cbn; try easy. intros H K. apply K. exact H. Qed.
Lemma rel_for {A B} (P : RelC A B) lo hi (b1 : nat -> A -> res A) (b2 : nat -> B -> res B) s t :
  (forall i s t, relc s t -> rel_res P (b1 i s) (b2 i t)) -> relc s t -> rel_res P (for_ lo hi b1 s) (for_ lo hi b2 t).
Proof.
  intros H. unfold for_. generalize (hi - lo) as n. intros n. revert lo s t. induction n as [|n IH]; intros lo s t Hst; cbn [for_n].
  - exact Hst.
  - apply (rel_bind P P); [apply H; exact Hst|]. intros a b Hab. apply IH. exact Hab.
Qed.
Lemma rel_rd {A B} (P : RelC A B) (l : list A) (l' : list B) i : relc l l' -> rel_res P (rd l i) (rd l' i).
Proof.
  intros H. unfold rd. revert i. induction H as [|x y l l' Hxy H IH]; intros [|i]; cbn; auto.
Qed.
Lemma rel_len {A B} (P : RelC A B) (l : list A) (l' : list B) : relc l l' -> length l = length l'.
Proof. intros H. induction H; cbn; congruence. Qed.
Lemma rel_upd {A B} (P : RelC A B) (l : list A) (l' : list B) i x y : relc l l' -> relc x y -> relc (upd l i x) (upd l' i y).
Proof.
  intros H Hxy. revert i. induction H as [|a b l l' Hab H IH]; intros [|i]; cbn; constructor; auto. apply IH.
Qed.
Lemma rel_wr {A B} (P : RelC A B) (l : list A) (l' : list B) i x y : relc l l' -> relc x y ->
  rel_res (relc_list P) (wr l i x) (wr l' i y).
Proof.
  intros H Hxy. unfold wr. rewrite <- (rel_len P l l' H). destruct (i <? length l); [|exact I]. apply rel_upd; assumption.
Qed.
Lemma rel_argl {A B} (P : RelC A B) (l : list A) (l' : list B) a b : relc l l' -> relc a b -> relc (argl l a) (argl l' b).
Proof. destruct a, b; cbn; auto; contradiction. Qed.
Lemma rel_repeat {A B} (P : RelC A B) x y n : relc x y -> relc (repeat x n) (repeat y n).
Proof. intros H. induction n; cbn; constructor; auto. Qed.
Lemma rel_copy {A B} (P : RelC A B) n (s : list A) (s' : list B) so (d : list A) (d' : list B) o :
  relc s s' -> relc d d' -> rel_res (relc_list P) (copy_n n s so d o) (copy_n n s' so d' o).
Proof.
  intros H1 H2. unfold copy_n. apply rel_for; [|exact H2]. intros i x y Hxy.
  apply (rel_bind P); [apply rel_rd; exact H1|]. intros a b Hab. apply rel_wr; assumption.
Qed.

(** The assumption about the two element types. *)
Definition ring_rel {T U} (ST : Scalar T) (SU : Scalar U) (E : T -> U -> Prop) : Prop :=
  E (@szero T ST) (@szero U SU) /\ E (@sone T ST) (@sone U SU) /\
  (forall a b c d, E a b -> E c d -> E (@sadd T ST a c) (@sadd U SU b d)) /\
  (forall a b c d, E a b -> E c d -> E (@ssub T ST a c) (@ssub U SU b d)) /\
  (forall a b c d, E a b -> E c d -> E (@smul T ST a c) (@smul U SU b d)) /\
  (forall a b, E a b -> E (@sopp T ST a) (@sopp U SU b)).

Section Hom.
Context {cfg : Cfg} {T U : Type} {ST : Scalar T} {SU : Scalar U} (E : RelC T U) (HE : ring_rel ST SU E).

Lemma r_zero : relc (@szero T ST) (@szero U SU). Proof. apply HE. Qed.
Lemma r_one : relc (@sone T ST) (@sone U SU). Proof. apply HE. Qed.
Lemma r_add (a : T) (b : U) c d : relc a b -> relc c d -> relc (sadd a c) (sadd b d).
Proof. apply HE. Qed.
Lemma r_sub (a : T) (b : U) c d : relc a b -> relc c d -> relc (ssub a c) (ssub b d).
Proof. apply HE. Qed.
Lemma r_mul (a : T) (b : U) c d : relc a b -> relc c d -> relc (smul a c) (smul b d).
Proof. apply HE. Qed.
Lemma r_opp (a : T) (b : U) : relc a b -> relc (sopp a) (sopp b).
Proof. apply HE. Qed.
Lemma r_nil : relc (@nil T) (@nil U). Proof. constructor. Qed.
Lemma r_cons (a : T) (b : U) (l : list T) (l' : list U) : relc a b -> relc l l' -> relc (a :: l) (b :: l').
Proof. intros; constructor; assumption. Qed.
Lemma r_Val (l : list T) (l' : list U) : relc l l' -> relc (Val l) (Val l'). Proof. intros H; exact H. Qed.
Lemma r_Self : relc (@Self T) (@Self U). Proof. exact I. Qed.

Ltac leaf := repeat first
  [ assumption | reflexivity | exact I
  | apply r_add | apply r_sub | apply r_mul | apply r_opp | apply r_zero | apply r_one
  | apply r_cons | apply r_nil | apply rel_argl | apply rel_repeat
  | match goal with
    | |- relc (_, _) (_, _) => split; cbn [fst snd]
    | |- relc (Val _) (Val _) => apply r_Val
    | |- relc Self Self => exact r_Self
    | |- relc (if ?b then _ else _) (if ?b then _ else _) => destruct b
    end ].
#[local] Ltac dprod := repeat match goal with
  | H : relc ?x ?y |- _ =>
      match type of x with
      | prod _ _ => destruct x, y; destruct H as [? ?]; cbn [fst snd] in *
      | nat => change (x = y) in H; subst
      end end.
Lemma h_mat_put' M N (m : list T) (m' : list U) r c x y :
  relc m m' -> relc x y -> rel_res (relc_list E) (@mat_put cfg T M N m r c x) (@mat_put cfg U M N m' r c y).
Proof. intros. unfold mat_put. destruct (_ && _); [exact I|]. apply rel_wr; assumption. Qed.
Lemma rel_q4 {A B} (Q : RelC A B) (l : list T) (l' : list U) (k : T -> T -> T -> T -> res A) (k' : U -> U -> U -> U -> res B) :
  relc l l' -> (forall x x' y y' z z' w w', relc x x' -> relc y y' -> relc z z' -> relc w w' ->
    rel_res Q (k x y z w) (k' x' y' z' w')) -> rel_res Q (q4 l k) (q4 l' k').
Proof.
  intros H K. unfold q4. repeat (apply (rel_bind E); [apply rel_rd; exact H|]; intros). apply K; assumption.
Qed.
Ltac hs := cbv beta zeta; dprod; first
  [ solve [eauto 8 with hom]
  | apply rel_ok; solve [leaf]
  | apply h_mat_put'; solve [leaf] | apply rel_rd; solve [leaf] | apply rel_wr; solve [leaf] | apply rel_copy; solve [leaf]
  | apply rel_for; [intros; hs|solve [leaf]]
  | apply rel_q4; [solve [leaf]|intros; hs]
  | eapply rel_bind; [hs|intros; hs]
  | match goal with
    | |- rel_res _ (if ?b then _ else _) (if ?b then _ else _) => destruct b; hs
    | |- rel_res _ Throw Throw => exact I
    | |- rel_res _ UB UB => exact I
    | |- rel_res _ NonFin NonFin => exact I
    end ].
Create HintDb hom.
Ltac go H := intros; unfold H, q_make; hs.

#[local] Hint Resolve rel_rd rel_wr rel_copy rel_argl rel_repeat r_zero r_one r_add r_sub r_mul r_opp r_Val r_Self r_nil r_cons : hom.
Lemma h_vat (n0 : nat) (x1 : list T) (y1 : list U) (n2 : nat) : relc x1 y1 -> rel_res E (@vat cfg T n0 x1 n2) (@vat cfg U n0 y1 n2).
Proof. go @vat. Qed.
#[local] Hint Resolve h_vat : hom.
Lemma h_vset (n0 : nat) (x1 : list T) (y1 : list U) (n2 : nat) (x3 : T) (y3 : U) : relc x1 y1 -> relc x3 y3 -> rel_res (relc_list E) (@vset cfg T n0 x1 n2 x3) (@vset cfg U n0 y1 n2 y3).
Proof. go @vset. Qed.
#[local] Hint Resolve h_vset : hom.
Lemma h_default M : relc (@vec_default T ST M) (@vec_default U SU M).
Proof. unfold vec_default. leaf. Qed.
#[local] Hint Resolve h_default : hom.
Lemma h_vec_ctor_fill (n0 : nat) (x1 : list T) (y1 : list U) (x2 : T) (y2 : U) : relc x1 y1 -> relc x2 y2 -> rel_res (relc_list E) (@vec_ctor_fill T n0 x1 x2) (@vec_ctor_fill U n0 y1 y2).
Proof. go @vec_ctor_fill. Qed.
#[local] Hint Resolve h_vec_ctor_fill : hom.
Lemma h_vec_set2 (x0 : list T) (y0 : list U) (x1 : T) (y1 : U) (x2 : T) (y2 : U) : relc x0 y0 -> relc x1 y1 -> relc x2 y2 -> rel_res (relc_list E) (@vec_set2 T x0 x1 x2) (@vec_set2 U y0 y1 y2).
Proof. go @vec_set2. Qed.
#[local] Hint Resolve h_vec_set2 : hom.
Lemma h_vec_set3 (x0 : list T) (y0 : list U) (x1 : T) (y1 : U) (x2 : T) (y2 : U) (x3 : T) (y3 : U) : relc x0 y0 -> relc x1 y1 -> relc x2 y2 -> relc x3 y3 -> rel_res (relc_list E) (@vec_set3 T x0 x1 x2 x3) (@vec_set3 U y0 y1 y2 y3).
Proof. go @vec_set3. Qed.
#[local] Hint Resolve h_vec_set3 : hom.
Lemma h_vec_set4 (x0 : list T) (y0 : list U) (x1 : T) (y1 : U) (x2 : T) (y2 : U) (x3 : T) (y3 : U) (x4 : T) (y4 : U) : relc x0 y0 -> relc x1 y1 -> relc x2 y2 -> relc x3 y3 -> relc x4 y4 -> rel_res (relc_list E) (@vec_set4 T x0 x1 x2 x3 x4) (@vec_set4 U y0 y1 y2 y3 y4).
Proof. go @vec_set4. Qed.
#[local] Hint Resolve h_vec_set4 : hom.
Lemma h_vec_ctor_ptr (n0 : nat) (x1 : list T) (y1 : list U) (x2 : list T) (y2 : list U) : relc x1 y1 -> relc x2 y2 -> rel_res (relc_list E) (@vec_ctor_ptr T n0 x1 x2) (@vec_ctor_ptr U n0 y1 y2).
Proof. go @vec_ctor_ptr. Qed.
#[local] Hint Resolve h_vec_ctor_ptr : hom.
Lemma h_vec_ctor_last (n0 : nat) (x1 : list T) (y1 : list U) (x2 : list T) (y2 : list U) (x3 : T) (y3 : U) : relc x1 y1 -> relc x2 y2 -> relc x3 y3 -> rel_res (relc_list E) (@vec_ctor_last T n0 x1 x2 x3) (@vec_ctor_last U n0 y1 y2 y3).
Proof. go @vec_ctor_last. Qed.
#[local] Hint Resolve h_vec_ctor_last : hom.
Lemma h_vec_set_fill (n0 : nat) (x1 : list T) (y1 : list U) (x2 : T) (y2 : U) : relc x1 y1 -> relc x2 y2 -> rel_res (relc_list E) (@vec_set_fill T n0 x1 x2) (@vec_set_fill U n0 y1 y2).
Proof. go @vec_set_fill. Qed.
#[local] Hint Resolve h_vec_set_fill : hom.
Lemma h_vec_set_last (n0 : nat) (x1 : list T) (y1 : list U) (x2 : list T) (y2 : list U) (x3 : T) (y3 : U) : relc x1 y1 -> relc x2 y2 -> relc x3 y3 -> rel_res (relc_list E) (@vec_set_last cfg T n0 x1 x2 x3) (@vec_set_last cfg U n0 y1 y2 y3).
Proof. go @vec_set_last. Qed.
#[local] Hint Resolve h_vec_set_last : hom.
Lemma h_vec_set_vec (n0 : nat) (n1 : nat) (x2 : list T) (y2 : list U) (x3 : list T) (y3 : list U) : relc x2 y2 -> relc x3 y3 -> rel_res (relc_list E) (@vec_set_vec T n0 n1 x2 x3) (@vec_set_vec U n0 n1 y2 y3).
Proof. go @vec_set_vec. Qed.
#[local] Hint Resolve h_vec_set_vec : hom.
Lemma h_vec_zip (n0 : nat) (x1 : T -> T -> res T) (y1 : U -> U -> res U) (x2 : list T) (y2 : list U) (x3 : list T) (y3 : list U) : (forall a b c d, relc a b -> relc c d -> rel_res E (x1 a c) (y1 b d)) -> relc x2 y2 -> relc x3 y3 -> rel_res (relc_list E) (@vec_zip cfg T ST n0 x1 x2 x3) (@vec_zip cfg U SU n0 y1 y2 y3).
Proof. go @vec_zip. Qed.
#[local] Hint Resolve h_vec_zip : hom.
Lemma h_vec_map (n0 : nat) (x1 : T -> res T) (y1 : U -> res U) (x2 : list T) (y2 : list U) : (forall a b, relc a b -> rel_res E (x1 a) (y1 b)) -> relc x2 y2 -> rel_res (relc_list E) (@vec_map cfg T ST n0 x1 x2) (@vec_map cfg U SU n0 y1 y2).
Proof. go @vec_map. Qed.
#[local] Hint Resolve h_vec_map : hom.
Lemma h_vec_mul (n0 : nat) (x1 : list T) (y1 : list U) (x2 : list T) (y2 : list U) : relc x1 y1 -> relc x2 y2 -> rel_res (relc_list E) (@vec_mul cfg T ST n0 x1 x2) (@vec_mul cfg U SU n0 y1 y2).
Proof. go @vec_mul. Qed.
#[local] Hint Resolve h_vec_mul : hom.
Lemma h_vec_add (n0 : nat) (x1 : list T) (y1 : list U) (x2 : list T) (y2 : list U) : relc x1 y1 -> relc x2 y2 -> rel_res (relc_list E) (@vec_add cfg T ST n0 x1 x2) (@vec_add cfg U SU n0 y1 y2).
Proof. go @vec_add. Qed.
#[local] Hint Resolve h_vec_add : hom.
Lemma h_vec_sub (n0 : nat) (x1 : list T) (y1 : list U) (x2 : list T) (y2 : list U) : relc x1 y1 -> relc x2 y2 -> rel_res (relc_list E) (@vec_sub cfg T ST n0 x1 x2) (@vec_sub cfg U SU n0 y1 y2).
Proof. go @vec_sub. Qed.
#[local] Hint Resolve h_vec_sub : hom.
Lemma h_vec_mul_s (n0 : nat) (x1 : list T) (y1 : list U) (x2 : T) (y2 : U) : relc x1 y1 -> relc x2 y2 -> rel_res (relc_list E) (@vec_mul_s cfg T ST n0 x1 x2) (@vec_mul_s cfg U SU n0 y1 y2).
Proof. go @vec_mul_s. Qed.
#[local] Hint Resolve h_vec_mul_s : hom.
Lemma h_vec_add_s (n0 : nat) (x1 : list T) (y1 : list U) (x2 : T) (y2 : U) : relc x1 y1 -> relc x2 y2 -> rel_res (relc_list E) (@vec_add_s cfg T ST n0 x1 x2) (@vec_add_s cfg U SU n0 y1 y2).
Proof. go @vec_add_s. Qed.
#[local] Hint Resolve h_vec_add_s : hom.
Lemma h_vec_sub_s (n0 : nat) (x1 : list T) (y1 : list U) (x2 : T) (y2 : U) : relc x1 y1 -> relc x2 y2 -> rel_res (relc_list E) (@vec_sub_s cfg T ST n0 x1 x2) (@vec_sub_s cfg U SU n0 y1 y2).
Proof. go @vec_sub_s. Qed.
#[local] Hint Resolve h_vec_sub_s : hom.
Lemma h_vec_zip_assign (n0 : nat) (x1 : T -> T -> res T) (y1 : U -> U -> res U) (x2 : list T) (y2 : list U) (x3 : arg T) (y3 : arg U) : (forall a b c d, relc a b -> relc c d -> rel_res E (x1 a c) (y1 b d)) -> relc x2 y2 -> relc x3 y3 -> rel_res (relc_list E) (@vec_zip_assign cfg T n0 x1 x2 x3) (@vec_zip_assign cfg U n0 y1 y2 y3).
Proof. go @vec_zip_assign. Qed.
#[local] Hint Resolve h_vec_zip_assign : hom.
Lemma h_vec_map_assign (n0 : nat) (x1 : T -> res T) (y1 : U -> res U) (x2 : list T) (y2 : list U) : (forall a b, relc a b -> rel_res E (x1 a) (y1 b)) -> relc x2 y2 -> rel_res (relc_list E) (@vec_map_assign cfg T n0 x1 x2) (@vec_map_assign cfg U n0 y1 y2).
Proof. go @vec_map_assign. Qed.
#[local] Hint Resolve h_vec_map_assign : hom.
Lemma h_vec_mul_assign (n0 : nat) (x1 : list T) (y1 : list U) (x2 : arg T) (y2 : arg U) : relc x1 y1 -> relc x2 y2 -> rel_res (relc_list E) (@vec_mul_assign cfg T ST n0 x1 x2) (@vec_mul_assign cfg U SU n0 y1 y2).
Proof. go @vec_mul_assign. Qed.
#[local] Hint Resolve h_vec_mul_assign : hom.
Lemma h_vec_add_assign (n0 : nat) (x1 : list T) (y1 : list U) (x2 : arg T) (y2 : arg U) : relc x1 y1 -> relc x2 y2 -> rel_res (relc_list E) (@vec_add_assign cfg T ST n0 x1 x2) (@vec_add_assign cfg U SU n0 y1 y2).
Proof. go @vec_add_assign. Qed.
#[local] Hint Resolve h_vec_add_assign : hom.
Lemma h_vec_sub_assign (n0 : nat) (x1 : list T) (y1 : list U) (x2 : arg T) (y2 : arg U) : relc x1 y1 -> relc x2 y2 -> rel_res (relc_list E) (@vec_sub_assign cfg T ST n0 x1 x2) (@vec_sub_assign cfg U SU n0 y1 y2).
Proof. go @vec_sub_assign. Qed.
#[local] Hint Resolve h_vec_sub_assign : hom.
Lemma h_vec_mul_assign_s (n0 : nat) (x1 : list T) (y1 : list U) (x2 : T) (y2 : U) : relc x1 y1 -> relc x2 y2 -> rel_res (relc_list E) (@vec_mul_assign_s cfg T ST n0 x1 x2) (@vec_mul_assign_s cfg U SU n0 y1 y2).
Proof. go @vec_mul_assign_s. Qed.
#[local] Hint Resolve h_vec_mul_assign_s : hom.
Lemma h_vec_add_assign_s (n0 : nat) (x1 : list T) (y1 : list U) (x2 : T) (y2 : U) : relc x1 y1 -> relc x2 y2 -> rel_res (relc_list E) (@vec_add_assign_s cfg T ST n0 x1 x2) (@vec_add_assign_s cfg U SU n0 y1 y2).
Proof. go @vec_add_assign_s. Qed.
#[local] Hint Resolve h_vec_add_assign_s : hom.
Lemma h_vec_sub_assign_s (n0 : nat) (x1 : list T) (y1 : list U) (x2 : T) (y2 : U) : relc x1 y1 -> relc x2 y2 -> rel_res (relc_list E) (@vec_sub_assign_s cfg T ST n0 x1 x2) (@vec_sub_assign_s cfg U SU n0 y1 y2).
Proof. go @vec_sub_assign_s. Qed.
#[local] Hint Resolve h_vec_sub_assign_s : hom.
Lemma h_vec_negate (n0 : nat) (x1 : list T) (y1 : list U) : relc x1 y1 -> rel_res (relc_list E) (@vec_negate T ST n0 x1) (@vec_negate U SU n0 y1).
Proof. go @vec_negate. Qed.
#[local] Hint Resolve h_vec_negate : hom.
Lemma h_vec_neg (n0 : nat) (x1 : list T) (y1 : list U) : relc x1 y1 -> rel_res (relc_list E) (@vec_neg T ST n0 x1) (@vec_neg U SU n0 y1).
Proof. go @vec_neg. Qed.
#[local] Hint Resolve h_vec_neg : hom.
Lemma h_vec_cross_into (x0 : list T) (y0 : list U) (x1 : arg T) (y1 : arg U) (x2 : arg T) (y2 : arg U) : relc x0 y0 -> relc x1 y1 -> relc x2 y2 -> rel_res (relc_list E) (@vec_cross_into T ST x0 x1 x2) (@vec_cross_into U SU y0 y1 y2).
Proof. go @vec_cross_into. Qed.
#[local] Hint Resolve h_vec_cross_into : hom.
Lemma h_vec_cross (x0 : list T) (y0 : list U) (x1 : list T) (y1 : list U) : relc x0 y0 -> relc x1 y1 -> rel_res (relc_list E) (@vec_cross T ST x0 x1) (@vec_cross U SU y0 y1).
Proof. go @vec_cross. Qed.
#[local] Hint Resolve h_vec_cross : hom.
Lemma h_vec_dot (n0 : nat) (x1 : list T) (y1 : list U) (x2 : list T) (y2 : list U) : relc x1 y1 -> relc x2 y2 -> rel_res E (@vec_dot cfg T ST n0 x1 x2) (@vec_dot cfg U SU n0 y1 y2).
Proof. go @vec_dot. Qed.
#[local] Hint Resolve h_vec_dot : hom.
Lemma h_vec_squared_length (n0 : nat) (x1 : list T) (y1 : list U) : relc x1 y1 -> rel_res E (@vec_squared_length T ST n0 x1) (@vec_squared_length U SU n0 y1).
Proof. go @vec_squared_length. Qed.
#[local] Hint Resolve h_vec_squared_length : hom.
Lemma h_vec_squared_distance (n0 : nat) (x1 : list T) (y1 : list U) (x2 : list T) (y2 : list U) : relc x1 y1 -> relc x2 y2 -> rel_res E (@vec_squared_distance cfg T ST n0 x1 x2) (@vec_squared_distance cfg U SU n0 y1 y2).
Proof. go @vec_squared_distance. Qed.
#[local] Hint Resolve h_vec_squared_distance : hom.
Lemma h_vec_product (n0 : nat) (x1 : list T) (y1 : list U) : relc x1 y1 -> rel_res E (@vec_product cfg T ST n0 x1) (@vec_product cfg U SU n0 y1).
Proof. go @vec_product. Qed.
#[local] Hint Resolve h_vec_product : hom.
Lemma h_vec_to_hom (n0 : nat) (x1 : list T) (y1 : list U) (x2 : list T) (y2 : list U) : relc x1 y1 -> relc x2 y2 -> rel_res (relc_list E) (@vec_to_hom cfg T ST n0 x1 x2) (@vec_to_hom cfg U SU n0 y1 y2).
Proof. go @vec_to_hom. Qed.
#[local] Hint Resolve h_vec_to_hom : hom.
Lemma h_mat_at (n0 : nat) (n1 : nat) (x2 : list T) (y2 : list U) (n3 : nat) (n4 : nat) : relc x2 y2 -> rel_res E (@mat_at cfg T n0 n1 x2 n3 n4) (@mat_at cfg U n0 n1 y2 n3 n4).
Proof. go @mat_at. Qed.
#[local] Hint Resolve h_mat_at : hom.
Lemma h_mat_put (n0 : nat) (n1 : nat) (x2 : list T) (y2 : list U) (n3 : nat) (n4 : nat) (x5 : T) (y5 : U) : relc x2 y2 -> relc x5 y5 -> rel_res (relc_list E) (@mat_put cfg T n0 n1 x2 n3 n4 x5) (@mat_put cfg U n0 n1 y2 n3 n4 y5).
Proof. go @mat_put. Qed.
#[local] Hint Resolve h_mat_put : hom.
Lemma h_mat_fill_rc (n0 : nat) (n1 : nat) (x2 : nat -> nat -> list T -> res T) (y2 : nat -> nat -> list U -> res U) (x3 : list T) (y3 : list U) : (forall i j m m2, relc m m2 -> rel_res E (x2 i j m) (y2 i j m2)) -> relc x3 y3 -> rel_res (relc_list E) (@mat_fill_rc cfg T n0 n1 x2 x3) (@mat_fill_rc cfg U n0 n1 y2 y3).
Proof. go @mat_fill_rc. Qed.
#[local] Hint Resolve h_mat_fill_rc : hom.
Lemma h_mat_fill (n0 : nat) (n1 : nat) (x2 : list T) (y2 : list U) (x3 : T) (y3 : U) : relc x2 y2 -> relc x3 y3 -> rel_res (relc_list E) (@mat_fill cfg T n0 n1 x2 x3) (@mat_fill cfg U n0 n1 y2 y3).
Proof. go @mat_fill. Qed.
#[local] Hint Resolve h_mat_fill : hom.
Lemma h_mat_zero (n0 : nat) (n1 : nat) (x2 : list T) (y2 : list U) : relc x2 y2 -> rel_res (relc_list E) (@mat_zero cfg T ST n0 n1 x2) (@mat_zero cfg U SU n0 n1 y2).
Proof. go @mat_zero. Qed.
#[local] Hint Resolve h_mat_zero : hom.
Lemma h_mat_assign_value (n0 : nat) (n1 : nat) (x2 : list T) (y2 : list U) (x3 : T) (y3 : U) : relc x2 y2 -> relc x3 y3 -> rel_res (relc_list E) (@mat_assign_value T n0 n1 x2 x3) (@mat_assign_value U n0 n1 y2 y3).
Proof. go @mat_assign_value. Qed.
#[local] Hint Resolve h_mat_assign_value : hom.
Lemma h_mat_default (n0 : nat) (n1 : nat) : rel_res (relc_list E) (@mat_default cfg T ST n0 n1) (@mat_default cfg U SU n0 n1).
Proof. go @mat_default. Qed.
#[local] Hint Resolve h_mat_default : hom.
Lemma h_mat_identity (n0 : nat) (n1 : nat) (x2 : list T) (y2 : list U) : relc x2 y2 -> rel_res (relc_list E) (@mat_identity cfg T ST n0 n1 x2) (@mat_identity cfg U SU n0 n1 y2).
Proof. go @mat_identity. Qed.
#[local] Hint Resolve h_mat_identity : hom.
Lemma h_mat_IDENTITY (n0 : nat) : rel_res (relc_list E) (@mat_IDENTITY cfg T ST n0) (@mat_IDENTITY cfg U SU n0).
Proof. go @mat_IDENTITY. Qed.
#[local] Hint Resolve h_mat_IDENTITY : hom.
Lemma h_mat_ZERO (n0 : nat) (n1 : nat) : rel_res (relc_list E) (@mat_ZERO cfg T ST n0 n1) (@mat_ZERO cfg U SU n0 n1).
Proof. go @mat_ZERO. Qed.
#[local] Hint Resolve h_mat_ZERO : hom.
Lemma h_mat_assign (n0 : nat) (n1 : nat) (x2 : list T) (y2 : list U) (x3 : arg T) (y3 : arg U) : relc x2 y2 -> relc x3 y3 -> rel_res (relc_list E) (@mat_assign T n0 n1 x2 x3) (@mat_assign U n0 n1 y2 y3).
Proof. go @mat_assign. Qed.
#[local] Hint Resolve h_mat_assign : hom.
Lemma h_mat_mul_piecewise (n0 : nat) (n1 : nat) (x2 : list T) (y2 : list U) (x3 : arg T) (y3 : arg U) : relc x2 y2 -> relc x3 y3 -> rel_res (relc_list E) (@mat_mul_piecewise cfg T ST n0 n1 x2 x3) (@mat_mul_piecewise cfg U SU n0 n1 y2 y3).
Proof. go @mat_mul_piecewise. Qed.
#[local] Hint Resolve h_mat_mul_piecewise : hom.
Lemma h_mat_multiply (n0 : nat) (n1 : nat) (n2 : nat) (x3 : list T) (y3 : list U) (x4 : arg T) (y4 : arg U) (x5 : arg T) (y5 : arg U) : relc x3 y3 -> relc x4 y4 -> relc x5 y5 -> rel_res (relc_list E) (@mat_multiply cfg T ST n0 n1 n2 x3 x4 x5) (@mat_multiply cfg U SU n0 n1 n2 y3 y4 y5).
Proof. go @mat_multiply. Qed.
#[local] Hint Resolve h_mat_multiply : hom.
Lemma h_mat_mul (n0 : nat) (n1 : nat) (n2 : nat) (x3 : list T) (y3 : list U) (x4 : list T) (y4 : list U) : relc x3 y3 -> relc x4 y4 -> rel_res (relc_list E) (@mat_mul cfg T ST n0 n1 n2 x3 x4) (@mat_mul cfg U SU n0 n1 n2 y3 y4).
Proof. go @mat_mul. Qed.
#[local] Hint Resolve h_mat_mul : hom.
Lemma h_mat_mul_assign (n0 : nat) (x1 : list T) (y1 : list U) (x2 : arg T) (y2 : arg U) : relc x1 y1 -> relc x2 y2 -> rel_res (relc_list E) (@mat_mul_assign cfg T ST n0 x1 x2) (@mat_mul_assign cfg U SU n0 y1 y2).
Proof. go @mat_mul_assign. Qed.
#[local] Hint Resolve h_mat_mul_assign : hom.
Lemma h_mat_map_s (n0 : nat) (n1 : nat) (x2 : T -> res T) (y2 : U -> res U) (x3 : list T) (y3 : list U) : (forall a b, relc a b -> rel_res E (x2 a) (y2 b)) -> relc x3 y3 -> rel_res (relc_list E) (@mat_map_s cfg T ST n0 n1 x2 x3) (@mat_map_s cfg U SU n0 n1 y2 y3).
Proof. go @mat_map_s. Qed.
#[local] Hint Resolve h_mat_map_s : hom.
Lemma h_mat_mul_s (n0 : nat) (n1 : nat) (x2 : list T) (y2 : list U) (x3 : T) (y3 : U) : relc x2 y2 -> relc x3 y3 -> rel_res (relc_list E) (@mat_mul_s cfg T ST n0 n1 x2 x3) (@mat_mul_s cfg U SU n0 n1 y2 y3).
Proof. go @mat_mul_s. Qed.
#[local] Hint Resolve h_mat_mul_s : hom.
Lemma h_mat_map_assign_s (n0 : nat) (n1 : nat) (x2 : T -> res T) (y2 : U -> res U) (x3 : list T) (y3 : list U) : (forall a b, relc a b -> rel_res E (x2 a) (y2 b)) -> relc x3 y3 -> rel_res (relc_list E) (@mat_map_assign_s cfg T n0 n1 x2 x3) (@mat_map_assign_s cfg U n0 n1 y2 y3).
Proof. go @mat_map_assign_s. Qed.
#[local] Hint Resolve h_mat_map_assign_s : hom.
Lemma h_mat_mul_assign_s (n0 : nat) (n1 : nat) (x2 : list T) (y2 : list U) (x3 : T) (y3 : U) : relc x2 y2 -> relc x3 y3 -> rel_res (relc_list E) (@mat_mul_assign_s cfg T ST n0 n1 x2 x3) (@mat_mul_assign_s cfg U SU n0 n1 y2 y3).
Proof. go @mat_mul_assign_s. Qed.
#[local] Hint Resolve h_mat_mul_assign_s : hom.
Lemma h_mat_iter_zip (n0 : nat) (n1 : nat) (x2 : T -> T -> T) (y2 : U -> U -> U) (x3 : list T) (y3 : list U) (x4 : arg T) (y4 : arg U) : (forall a b c d, relc a b -> relc c d -> relc (x2 a c) (y2 b d)) -> relc x3 y3 -> relc x4 y4 -> rel_res (relc_list E) (@mat_iter_zip T n0 n1 x2 x3 x4) (@mat_iter_zip U n0 n1 y2 y3 y4).
Proof. go @mat_iter_zip. Qed.
#[local] Hint Resolve h_mat_iter_zip : hom.
Lemma h_mat_add_assign (n0 : nat) (n1 : nat) (x2 : list T) (y2 : list U) (x3 : arg T) (y3 : arg U) : relc x2 y2 -> relc x3 y3 -> rel_res (relc_list E) (@mat_add_assign T ST n0 n1 x2 x3) (@mat_add_assign U SU n0 n1 y2 y3).
Proof. go @mat_add_assign. Qed.
#[local] Hint Resolve h_mat_add_assign : hom.
Lemma h_mat_sub_assign (n0 : nat) (n1 : nat) (x2 : list T) (y2 : list U) (x3 : arg T) (y3 : arg U) : relc x2 y2 -> relc x3 y3 -> rel_res (relc_list E) (@mat_sub_assign T ST n0 n1 x2 x3) (@mat_sub_assign U SU n0 n1 y2 y3).
Proof. go @mat_sub_assign. Qed.
#[local] Hint Resolve h_mat_sub_assign : hom.
Lemma h_mat_iter_map (n0 : nat) (n1 : nat) (x2 : T -> T) (y2 : U -> U) (x3 : list T) (y3 : list U) : (forall a b, relc a b -> relc (x2 a) (y2 b)) -> relc x3 y3 -> rel_res (relc_list E) (@mat_iter_map T n0 n1 x2 x3) (@mat_iter_map U n0 n1 y2 y3).
Proof. go @mat_iter_map. Qed.
#[local] Hint Resolve h_mat_iter_map : hom.
Lemma h_mat_add_assign_s (n0 : nat) (n1 : nat) (x2 : list T) (y2 : list U) (x3 : T) (y3 : U) : relc x2 y2 -> relc x3 y3 -> rel_res (relc_list E) (@mat_add_assign_s T ST n0 n1 x2 x3) (@mat_add_assign_s U SU n0 n1 y2 y3).
Proof. go @mat_add_assign_s. Qed.
#[local] Hint Resolve h_mat_add_assign_s : hom.
Lemma h_mat_sub_assign_s (n0 : nat) (n1 : nat) (x2 : list T) (y2 : list U) (x3 : T) (y3 : U) : relc x2 y2 -> relc x3 y3 -> rel_res (relc_list E) (@mat_sub_assign_s T ST n0 n1 x2 x3) (@mat_sub_assign_s U SU n0 n1 y2 y3).
Proof. go @mat_sub_assign_s. Qed.
#[local] Hint Resolve h_mat_sub_assign_s : hom.
Lemma h_mat_add (n0 : nat) (n1 : nat) (x2 : list T) (y2 : list U) (x3 : list T) (y3 : list U) : relc x2 y2 -> relc x3 y3 -> rel_res (relc_list E) (@mat_add T ST n0 n1 x2 x3) (@mat_add U SU n0 n1 y2 y3).
Proof. go @mat_add. Qed.
#[local] Hint Resolve h_mat_add : hom.
Lemma h_mat_sub (n0 : nat) (n1 : nat) (x2 : list T) (y2 : list U) (x3 : list T) (y3 : list U) : relc x2 y2 -> relc x3 y3 -> rel_res (relc_list E) (@mat_sub T ST n0 n1 x2 x3) (@mat_sub U SU n0 n1 y2 y3).
Proof. go @mat_sub. Qed.
#[local] Hint Resolve h_mat_sub : hom.
Lemma h_mat_mul_vec (n0 : nat) (n1 : nat) (x2 : list T) (y2 : list U) (x3 : list T) (y3 : list U) : relc x2 y2 -> relc x3 y3 -> rel_res (relc_list E) (@mat_mul_vec cfg T ST n0 n1 x2 x3) (@mat_mul_vec cfg U SU n0 n1 y2 y3).
Proof. go @mat_mul_vec. Qed.
#[local] Hint Resolve h_mat_mul_vec : hom.
Lemma h_mat_negate (n0 : nat) (n1 : nat) (x2 : list T) (y2 : list U) : relc x2 y2 -> rel_res (relc_list E) (@mat_negate cfg T ST n0 n1 x2) (@mat_negate cfg U SU n0 n1 y2).
Proof. go @mat_negate. Qed.
#[local] Hint Resolve h_mat_negate : hom.
Lemma h_mat_tensor (n0 : nat) (n1 : nat) (x2 : list T) (y2 : list U) (x3 : list T) (y3 : list U) (x4 : list T) (y4 : list U) : relc x2 y2 -> relc x3 y3 -> relc x4 y4 -> rel_res (relc_list E) (@mat_tensor cfg T ST n0 n1 x2 x3 x4) (@mat_tensor cfg U SU n0 n1 y2 y3 y4).
Proof. go @mat_tensor. Qed.
#[local] Hint Resolve h_mat_tensor : hom.
Lemma h_mat_tensor34 (x0 : list T) (y0 : list U) (x1 : list T) (y1 : list U) (x2 : list T) (y2 : list U) : relc x0 y0 -> relc x1 y1 -> relc x2 y2 -> rel_res (relc_list E) (@mat_tensor34 cfg T ST x0 x1 x2) (@mat_tensor34 cfg U SU y0 y1 y2).
Proof. go @mat_tensor34. Qed.
#[local] Hint Resolve h_mat_tensor34 : hom.
Lemma h_mat_transpose_to (n0 : nat) (n1 : nat) (x2 : list T) (y2 : list U) (x3 : list T) (y3 : list U) : relc x2 y2 -> relc x3 y3 -> rel_res (relc_list E) (@mat_transpose_to cfg T n0 n1 x2 x3) (@mat_transpose_to cfg U n0 n1 y2 y3).
Proof. go @mat_transpose_to. Qed.
#[local] Hint Resolve h_mat_transpose_to : hom.
Lemma h_mat_transpose (n0 : nat) (n1 : nat) (x2 : list T) (y2 : list U) : relc x2 y2 -> rel_res (relc_list E) (@mat_transpose cfg T ST n0 n1 x2) (@mat_transpose cfg U SU n0 n1 y2).
Proof. go @mat_transpose. Qed.
#[local] Hint Resolve h_mat_transpose : hom.
Lemma h_mat_sym_cov (n0 : nat) (n1 : nat) (x2 : list T) (y2 : list U) (x3 : list T) (y3 : list U) : relc x2 y2 -> relc x3 y3 -> rel_res (relc_list E) (@mat_sym_cov cfg T ST n0 n1 x2 x3) (@mat_sym_cov cfg U SU n0 n1 y2 y3).
Proof. go @mat_sym_cov. Qed.
#[local] Hint Resolve h_mat_sym_cov : hom.
Lemma h_mat_get_column_into (n0 : nat) (n1 : nat) (x2 : list T) (y2 : list U) (n3 : nat) (x4 : list T) (y4 : list U) : relc x2 y2 -> relc x4 y4 -> rel_res (relc_list E) (@mat_get_column_into cfg T n0 n1 x2 n3 x4) (@mat_get_column_into cfg U n0 n1 y2 n3 y4).
Proof. go @mat_get_column_into. Qed.
#[local] Hint Resolve h_mat_get_column_into : hom.
Lemma h_mat_get_column (n0 : nat) (n1 : nat) (x2 : list T) (y2 : list U) (n3 : nat) : relc x2 y2 -> rel_res (relc_list E) (@mat_get_column cfg T ST n0 n1 x2 n3) (@mat_get_column cfg U SU n0 n1 y2 n3).
Proof. go @mat_get_column. Qed.
#[local] Hint Resolve h_mat_get_column : hom.
Lemma h_mat_set_column (n0 : nat) (n1 : nat) (x2 : list T) (y2 : list U) (n3 : nat) (x4 : list T) (y4 : list U) : relc x2 y2 -> relc x4 y4 -> rel_res (relc_list E) (@mat_set_column cfg T n0 n1 x2 n3 x4) (@mat_set_column cfg U n0 n1 y2 n3 y4).
Proof. go @mat_set_column. Qed.
#[local] Hint Resolve h_mat_set_column : hom.
Lemma h_mat_get_row_into (n0 : nat) (n1 : nat) (x2 : list T) (y2 : list U) (n3 : nat) (x4 : list T) (y4 : list U) : relc x2 y2 -> relc x4 y4 -> rel_res (relc_list E) (@mat_get_row_into cfg T n0 n1 x2 n3 x4) (@mat_get_row_into cfg U n0 n1 y2 n3 y4).
Proof. go @mat_get_row_into. Qed.
#[local] Hint Resolve h_mat_get_row_into : hom.
Lemma h_mat_get_row (n0 : nat) (n1 : nat) (x2 : list T) (y2 : list U) (n3 : nat) : relc x2 y2 -> rel_res (relc_list E) (@mat_get_row cfg T ST n0 n1 x2 n3) (@mat_get_row cfg U SU n0 n1 y2 n3).
Proof. go @mat_get_row. Qed.
#[local] Hint Resolve h_mat_get_row : hom.
Lemma h_mat_set_row (n0 : nat) (n1 : nat) (x2 : list T) (y2 : list U) (n3 : nat) (x4 : list T) (y4 : list U) : relc x2 y2 -> relc x4 y4 -> rel_res (relc_list E) (@mat_set_row cfg T n0 n1 x2 n3 x4) (@mat_set_row cfg U n0 n1 y2 n3 y4).
Proof. go @mat_set_row. Qed.
#[local] Hint Resolve h_mat_set_row : hom.
Lemma h_mat_get_sub (n0 : nat) (n1 : nat) (n2 : nat) (n3 : nat) (x4 : list T) (y4 : list U) (x5 : list T) (y5 : list U) (n6 : nat) (n7 : nat) : relc x4 y4 -> relc x5 y5 -> rel_res (relc_list E) (@mat_get_sub cfg T n0 n1 n2 n3 x4 x5 n6 n7) (@mat_get_sub cfg U n0 n1 n2 n3 y4 y5 n6 n7).
Proof. go @mat_get_sub. Qed.
#[local] Hint Resolve h_mat_get_sub : hom.
Lemma h_mat_sub_matrix (n0 : nat) (n1 : nat) (n2 : nat) (n3 : nat) (x4 : list T) (y4 : list U) (n5 : nat) (n6 : nat) : relc x4 y4 -> rel_res (relc_list E) (@mat_sub_matrix cfg T ST n0 n1 n2 n3 x4 n5 n6) (@mat_sub_matrix cfg U SU n0 n1 n2 n3 y4 n5 n6).
Proof. go @mat_sub_matrix. Qed.
#[local] Hint Resolve h_mat_sub_matrix : hom.
Lemma h_mat_set_sub (n0 : nat) (n1 : nat) (n2 : nat) (n3 : nat) (x4 : list T) (y4 : list U) (x5 : list T) (y5 : list U) (n6 : nat) (n7 : nat) : relc x4 y4 -> relc x5 y5 -> rel_res (relc_list E) (@mat_set_sub cfg T n0 n1 n2 n3 x4 x5 n6 n7) (@mat_set_sub cfg U n0 n1 n2 n3 y4 y5 n6 n7).
Proof. go @mat_set_sub. Qed.
#[local] Hint Resolve h_mat_set_sub : hom.
Lemma h_mat_direct_sum (n0 : nat) (n1 : nat) (n2 : nat) (n3 : nat) (x4 : list T) (y4 : list U) (x5 : list T) (y5 : list U) (x6 : list T) (y6 : list U) : relc x4 y4 -> relc x5 y5 -> relc x6 y6 -> rel_res (relc_list E) (@mat_direct_sum cfg T ST n0 n1 n2 n3 x4 x5 x6) (@mat_direct_sum cfg U SU n0 n1 n2 n3 y4 y5 y6).
Proof. go @mat_direct_sum. Qed.
#[local] Hint Resolve h_mat_direct_sum : hom.
Lemma h_mat_khatri_rao (n0 : nat) (n1 : nat) (n2 : nat) (x3 : list T) (y3 : list U) (x4 : list T) (y4 : list U) (x5 : list T) (y5 : list U) : relc x3 y3 -> relc x4 y4 -> relc x5 y5 -> rel_res (relc_list E) (@mat_khatri_rao cfg T ST n0 n1 n2 x3 x4 x5) (@mat_khatri_rao cfg U SU n0 n1 n2 y3 y4 y5).
Proof. go @mat_khatri_rao. Qed.
#[local] Hint Resolve h_mat_khatri_rao : hom.
Lemma h_mat_kronecker (n0 : nat) (n1 : nat) (n2 : nat) (n3 : nat) (x4 : list T) (y4 : list U) (x5 : list T) (y5 : list U) (x6 : list T) (y6 : list U) : relc x4 y4 -> relc x5 y5 -> relc x6 y6 -> rel_res (relc_list E) (@mat_kronecker cfg T ST n0 n1 n2 n3 x4 x5 x6) (@mat_kronecker cfg U SU n0 n1 n2 n3 y4 y5 y6).
Proof. go @mat_kronecker. Qed.
#[local] Hint Resolve h_mat_kronecker : hom.
Lemma h_mat_diag (n0 : nat) (x1 : list T) (y1 : list U) (x2 : list T) (y2 : list U) : relc x1 y1 -> relc x2 y2 -> rel_res (relc_list E) (@mat_diag cfg T ST n0 x1 x2) (@mat_diag cfg U SU n0 y1 y2).
Proof. go @mat_diag. Qed.
#[local] Hint Resolve h_mat_diag : hom.
Lemma h_mat_sum_elements (n0 : nat) (n1 : nat) (x2 : list T) (y2 : list U) : relc x2 y2 -> rel_res E (@mat_sum_elements T ST n0 n1 x2) (@mat_sum_elements U SU n0 n1 y2).
Proof. go @mat_sum_elements. Qed.
#[local] Hint Resolve h_mat_sum_elements : hom.
Lemma h_mat_columnwise_sum (n0 : nat) (n1 : nat) (x2 : list T) (y2 : list U) (x3 : list T) (y3 : list U) : relc x2 y2 -> relc x3 y3 -> rel_res (relc_list E) (@mat_columnwise_sum cfg T ST n0 n1 x2 x3) (@mat_columnwise_sum cfg U SU n0 n1 y2 y3).
Proof. go @mat_columnwise_sum. Qed.
#[local] Hint Resolve h_mat_columnwise_sum : hom.
Lemma h_mat_sum_rows (n0 : nat) (n1 : nat) (x2 : list T) (y2 : list U) (x3 : list T) (y3 : list U) : relc x2 y2 -> relc x3 y3 -> rel_res (relc_list E) (@mat_sum_rows cfg T ST n0 n1 x2 x3) (@mat_sum_rows cfg U SU n0 n1 y2 y3).
Proof. go @mat_sum_rows. Qed.
#[local] Hint Resolve h_mat_sum_rows : hom.
Lemma h_mat_sum_columns (n0 : nat) (n1 : nat) (x2 : list T) (y2 : list U) (x3 : list T) (y3 : list U) : relc x2 y2 -> relc x3 y3 -> rel_res (relc_list E) (@mat_sum_columns cfg T ST n0 n1 x2 x3) (@mat_sum_columns cfg U SU n0 n1 y2 y3).
Proof. go @mat_sum_columns. Qed.
#[local] Hint Resolve h_mat_sum_columns : hom.
Lemma h_mat_convolve (n0 : nat) (n1 : nat) (n2 : nat) (n3 : nat) (x4 : list T) (y4 : list U) (x5 : list T) (y5 : list U) : relc x4 y4 -> relc x5 y5 -> rel_res (relc_list E) (@mat_convolve cfg T ST n0 n1 n2 n3 x4 x5) (@mat_convolve cfg U SU n0 n1 n2 n3 y4 y5).
Proof. go @mat_convolve. Qed.
#[local] Hint Resolve h_mat_convolve : hom.
Lemma h_mat_det1 (x0 : list T) (y0 : list U) : relc x0 y0 -> rel_res E (@mat_det1 T x0) (@mat_det1 U y0).
Proof. go @mat_det1. Qed.
#[local] Hint Resolve h_mat_det1 : hom.
Lemma h_mat_det2 (x0 : list T) (y0 : list U) : relc x0 y0 -> rel_res E (@mat_det2 cfg T ST x0) (@mat_det2 cfg U SU y0).
Proof. go @mat_det2. Qed.
#[local] Hint Resolve h_mat_det2 : hom.
Lemma h_mat_det3 (x0 : list T) (y0 : list U) : relc x0 y0 -> rel_res E (@mat_det3 cfg T ST x0) (@mat_det3 cfg U SU y0).
Proof. go @mat_det3. Qed.
#[local] Hint Resolve h_mat_det3 : hom.
Lemma h_mat_det4 (x0 : list T) (y0 : list U) : relc x0 y0 -> rel_res E (@mat_det4 cfg T ST x0) (@mat_det4 cfg U SU y0).
Proof. go @mat_det4. Qed.
#[local] Hint Resolve h_mat_det4 : hom.
Lemma h_mat_det (n0 : nat) (x1 : list T) (y1 : list U) : relc x1 y1 -> rel_res E (@mat_det cfg T ST n0 x1) (@mat_det cfg U SU n0 y1).
Proof. intros. unfold mat_det. destruct n0 as [|[|[|[|[|n]]]]]; hs. Qed.
#[local] Hint Resolve h_mat_det : hom.
Lemma h_mat_get_minor (n0 : nat) (x1 : list T) (y1 : list U) (x2 : list T) (y2 : list U) (n3 : nat) (n4 : nat) : relc x1 y1 -> relc x2 y2 -> rel_res (relc_prod E (relc_list E)) (@mat_get_minor cfg T ST n0 x1 x2 n3 n4) (@mat_get_minor cfg U SU n0 y1 y2 n3 n4).
Proof. go @mat_get_minor. Qed.
#[local] Hint Resolve h_mat_get_minor : hom.
Lemma h_mat_get_cofactors (n0 : nat) (x1 : arg T) (y1 : arg U) (x2 : list T) (y2 : list U) : relc x1 y1 -> relc x2 y2 -> rel_res (relc_list E) (@mat_get_cofactors cfg T ST n0 x1 x2) (@mat_get_cofactors cfg U SU n0 y1 y2).
Proof. go @mat_get_cofactors. Qed.
#[local] Hint Resolve h_mat_get_cofactors : hom.
Lemma h_mat_get_adjugate (n0 : nat) (x1 : arg T) (y1 : arg U) (x2 : list T) (y2 : list U) : relc x1 y1 -> relc x2 y2 -> rel_res (relc_list E) (@mat_get_adjugate cfg T ST n0 x1 x2) (@mat_get_adjugate cfg U SU n0 y1 y2).
Proof. go @mat_get_adjugate. Qed.
#[local] Hint Resolve h_mat_get_adjugate : hom.
Lemma h_q_add (x0 : list T) (y0 : list U) (x1 : list T) (y1 : list U) : relc x0 y0 -> relc x1 y1 -> rel_res (relc_list E) (@q_add T ST x0 x1) (@q_add U SU y0 y1).
Proof. go @q_add. Qed.
#[local] Hint Resolve h_q_add : hom.
Lemma h_q_sub (x0 : list T) (y0 : list U) (x1 : list T) (y1 : list U) : relc x0 y0 -> relc x1 y1 -> rel_res (relc_list E) (@q_sub T ST x0 x1) (@q_sub U SU y0 y1).
Proof. go @q_sub. Qed.
#[local] Hint Resolve h_q_sub : hom.
Lemma h_q_add_assign (x0 : list T) (y0 : list U) (x1 : arg T) (y1 : arg U) : relc x0 y0 -> relc x1 y1 -> rel_res (relc_list E) (@q_add_assign T ST x0 x1) (@q_add_assign U SU y0 y1).
Proof. go @q_add_assign. Qed.
#[local] Hint Resolve h_q_add_assign : hom.
Lemma h_q_sub_assign (x0 : list T) (y0 : list U) (x1 : arg T) (y1 : arg U) : relc x0 y0 -> relc x1 y1 -> rel_res (relc_list E) (@q_sub_assign T ST x0 x1) (@q_sub_assign U SU y0 y1).
Proof. go @q_sub_assign. Qed.
#[local] Hint Resolve h_q_sub_assign : hom.
Lemma h_q_neg (x0 : list T) (y0 : list U) : relc x0 y0 -> rel_res (relc_list E) (@q_neg T ST x0) (@q_neg U SU y0).
Proof. go @q_neg. Qed.
#[local] Hint Resolve h_q_neg : hom.
Lemma h_q_conjugate (x0 : list T) (y0 : list U) : relc x0 y0 -> rel_res (relc_list E) (@q_conjugate T ST x0) (@q_conjugate U SU y0).
Proof. go @q_conjugate. Qed.
#[local] Hint Resolve h_q_conjugate : hom.
Lemma h_q_get_conjugate (x0 : list T) (y0 : list U) : relc x0 y0 -> rel_res (relc_list E) (@q_get_conjugate T ST x0) (@q_get_conjugate U SU y0).
Proof. go @q_get_conjugate. Qed.
#[local] Hint Resolve h_q_get_conjugate : hom.
Lemma h_q_squared_abs (x0 : list T) (y0 : list U) : relc x0 y0 -> rel_res E (@q_squared_abs T ST x0) (@q_squared_abs U SU y0).
Proof. go @q_squared_abs. Qed.
#[local] Hint Resolve h_q_squared_abs : hom.
Lemma h_q_mul_s (x0 : list T) (y0 : list U) (x1 : T) (y1 : U) : relc x0 y0 -> relc x1 y1 -> rel_res (relc_list E) (@q_mul_s T ST x0 x1) (@q_mul_s U SU y0 y1).
Proof. go @q_mul_s. Qed.
#[local] Hint Resolve h_q_mul_s : hom.
Lemma h_q_mul_assign_s (x0 : list T) (y0 : list U) (x1 : T) (y1 : U) : relc x0 y0 -> relc x1 y1 -> rel_res (relc_list E) (@q_mul_assign_s T ST x0 x1) (@q_mul_assign_s U SU y0 y1).
Proof. go @q_mul_assign_s. Qed.
#[local] Hint Resolve h_q_mul_assign_s : hom.
Lemma h_q_cross (x0 : list T) (y0 : list U) (x1 : list T) (y1 : list U) : relc x0 y0 -> relc x1 y1 -> rel_res (relc_list E) (@q_cross T ST x0 x1) (@q_cross U SU y0 y1).
Proof. go @q_cross. Qed.
#[local] Hint Resolve h_q_cross : hom.
Lemma h_q_dot (x0 : list T) (y0 : list U) (x1 : list T) (y1 : list U) : relc x0 y0 -> relc x1 y1 -> rel_res E (@q_dot T ST x0 x1) (@q_dot U SU y0 y1).
Proof. go @q_dot. Qed.
#[local] Hint Resolve h_q_dot : hom.
End Hom.
