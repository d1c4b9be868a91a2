(** Property C148: chains of matrix products of any length, in double. *)
From Coq Require Import ZArith Reals Lra Psatz.
From Flocq Require Import Core.Core IEEE754.BinarySingleNaN IEEE754.Binary IEEE754.Bits.
From Verif Require Import InstF MMatrix LMatrix LSum PFloat LFloat PFloat2 Spec12.
Local Open Scope R_scope.
Local Open Scope list_scope.
Local Existing Instance F64Scalar.

(** The caller's program: m * a1 * a2 * ... * ak, evaluated from the left. *)
Fixpoint mul_all {cfg : Cfg} (n : nat) (m : list f64) (l : list (list f64)) : res (list f64) :=
  match l with
  | [] => Ok m
  | a :: l' => x <- mat_mul n n n m a ;; mul_all n x l'
  end.
(** v = a1 * v; v = a2 * v; ... *)
Fixpoint apply_all {cfg : Cfg} (n : nat) (v : list f64) (l : list (list f64)) : res (list f64) :=
  match l with
  | [] => Ok v
  | a :: l' => x <- mat_mul_vec n n a v ;; apply_all n x l'
  end.
(** m *= a1; m *= a2; ... *)
Fixpoint mul_assign_all {cfg : Cfg} (n : nat) (m : list f64) (l : list (list f64)) : res (list f64) :=
  match l with
  | [] => Ok m
  | a :: l' => x <- mat_mul_assign n m (Val a) ;; mul_assign_all n x l'
  end.
(** The cells of an n x n matrix, and the components of a vector, as real numbers. *)
Definition mcells (n : nat) (m : list f64) (i j : nat) : R := val (nth (j * n + i) m f64_zero).
Definition vcells (v : list f64) (i : nat) : R := val (nth i v f64_zero).

Lemma ssum_fin_terms (t : nat -> f64) : forall n, fin (ssum n t) -> forall p, (p < n)%nat -> fin (t p).
Proof.
  induction n as [|n IH]; intros H p Hp; [lia|]. cbn [ssum sadd F64Scalar] in H. destruct (fin_plus _ _ H) as (H1 & H2 & _).
  destruct (Nat.eq_dec p n) as [->|]; [exact H2|]. apply IH; [exact H1|lia].
Qed.

(** One product: the error so far is at most G (S + mu) - S. *)
Lemma chain_step (n : nat) (x a X S mu : nat -> R) (s G g e : R) :
  1 <= G -> 1 <= g -> 0 <= e ->
  (forall p, (p < n)%nat -> Rabs (x p - X p) <= G * (S p + mu p) - S p /\ Rabs (X p) <= S p /\ 0 <= mu p) ->
  Rabs (s - rsum n (fun p => x p * a p)) <= (g - 1) * rsum n (fun p => Rabs (x p * a p)) + e * g ->
  Rabs (s - rsum n (fun p => X p * a p)) <=
    g * G * (rsum n (fun p => S p * Rabs (a p)) + (rsum n (fun p => mu p * Rabs (a p)) + e)) - rsum n (fun p => S p * Rabs (a p)).
Proof.
  intros HG Hg He H E. set (SA := rsum n (fun p => S p * Rabs (a p))). set (MA := rsum n (fun p => mu p * Rabs (a p))).
  assert (B1 : rsum n (fun p => Rabs (x p * a p)) <= G * (SA + MA)).
  { unfold SA, MA. rewrite <- rsum_plus, <- rsum_scal. apply rsum_le. intros p Hp. destruct (H p Hp) as (H1 & H2 & H3). rewrite Rabs_mult.
    replace (G * (S p * Rabs (a p) + mu p * Rabs (a p))) with (G * (S p + mu p) * Rabs (a p)) by ring.
    apply Rmult_le_compat_r; [apply Rabs_pos|]. replace (x p) with (X p + (x p - X p)) by ring. eapply Rle_trans; [apply Rabs_triang|]. lra. }
  assert (B2 : Rabs (rsum n (fun p => x p * a p) - rsum n (fun p => X p * a p)) <= G * (SA + MA) - SA).
  { rewrite <- rsum_minus. eapply Rle_trans; [apply rsum_abs|]. unfold SA, MA. rewrite <- rsum_plus, <- rsum_scal, <- rsum_minus. apply rsum_le.
    intros p Hp. destruct (H p Hp) as (H1 & H2 & H3). replace (x p * a p - X p * a p) with ((x p - X p) * a p) by ring. rewrite Rabs_mult.
    replace (G * (S p * Rabs (a p) + mu p * Rabs (a p)) - S p * Rabs (a p)) with ((G * (S p + mu p) - S p) * Rabs (a p)) by ring.
    apply Rmult_le_compat_r; [apply Rabs_pos|exact H1]. }
  set (T := rsum n (fun p => x p * a p)) in *. set (T' := rsum n (fun p => X p * a p)) in *.
  replace (s - T') with ((s - T) + (T - T')) by ring. eapply Rle_trans; [apply Rabs_triang|].
  assert ((g - 1) * rsum n (fun p => Rabs (x p * a p)) <= (g - 1) * (G * (SA + MA))) by (apply Rmult_le_compat_l; lra).
  assert (e * g <= g * G * e).
  { replace (g * G * e) with (e * g * G) by ring. rewrite <- (Rmult_1_r (e * g)) at 1. apply Rmult_le_compat_l; [apply Rmult_le_pos; lra|exact HG]. }
  replace (g * G * (SA + (MA + e)) - SA) with ((g - 1) * (G * (SA + MA)) + (G * (SA + MA) - SA) + g * G * e) by ring. lra.
Qed.
Lemma mmul_abs n X S a i j : (forall p, (p < n)%nat -> Rabs (X i p) <= S i p) -> Rabs (mmulR n X a i j) <= mmulR n S (absM a) i j.
Proof.
  intros H. eapply Rle_trans; [apply rsum_abs|]. apply rsum_le. intros p Hp. rewrite Rabs_mult. apply Rmult_le_compat_r; [apply Rabs_pos|apply H; exact Hp].
Qed.
Lemma g1 n : 1 <= (1 + uro) ^ n.
Proof. apply pow_R1_Rle. pose proof uro_pos. lra. Qed.
Lemma rep_mcells n m h : repM n n m h -> forall i j, (i < n)%nat -> (j < n)%nat -> mcells n m i j = val (h i j).
Proof. intros (_ & H) i j Hi Hj. unfold mcells. rewrite (nth_error_nth m (j * n + i) f64_zero (H i j Hi Hj)). reflexivity. Qed.
Lemma rep_vcells n v h : repV n v h -> forall i, (i < n)%nat -> vcells v i = val (h i).
Proof. intros (_ & H) i Hi. unfold vcells. rewrite (nth_error_nth v i f64_zero (H i Hi)). reflexivity. Qed.

Lemma cells_all n (a : list f64) : length a = (n * n)%nat ->
  (forall i j, (i < n)%nat -> (j < n)%nat -> fin (nth (j * n + i) a f64_zero)) -> forall x, In x a -> fin x.
Proof.
  intros L H x Hx. apply (In_nth _ _ f64_zero) in Hx. destruct Hx as (k & Hk & <-). rewrite L in Hk.
  assert (N : (0 < n)%nat) by nia. pose proof (Nat.div_mod k n ltac:(lia)) as D. rewrite D.
  replace (n * (k / n) + k mod n)%nat with (k / n * n + k mod n)%nat by lia. apply H; [apply Nat.mod_upper_bound; lia|].
  apply Nat.div_lt_upper_bound; lia.
Qed.

Section Chain.
Context (cfg : Cfg) (n : nat).

Lemma mul_all_spec : forall (l : list (list f64)) (m : list f64) (h : nat -> nat -> f64), repM n n m h -> Forall (fun a => length a = (n * n)%nat) l ->
  exists r k, mul_all n m l = Ok r /\ repM n n r k /\
  ((forall i j, (i < n)%nat -> (j < n)%nat -> fin (k i j)) ->
   ((forall i j, (i < n)%nat -> (j < n)%nat -> fin (h i j)) /\ Forall (fun a => forall x, In x a -> fin x) l) /\
   forall (X S mu : nat -> nat -> R) (G : R), 1 <= G ->
   (forall i j, (i < n)%nat -> (j < n)%nat -> Rabs (val (h i j) - X i j) <= G * (S i j + mu i j) - S i j /\ Rabs (X i j) <= S i j /\ 0 <= mu i j) ->
   forall i j, (i < n)%nat -> (j < n)%nat ->
   Rabs (val (k i j) - chainR n X (map (mcells n) l) i j) <=
     (1 + uro) ^ (n * length l) * G * (chainR n S (map absM (map (mcells n) l)) i j
        + fold_left (fun Y A i j => mmulR n Y (absM A) i j + INR n * eta) (map (mcells n) l) mu i j)
     - chainR n S (map absM (map (mcells n) l)) i j).
Proof.
  induction l as [|a l IH]; intros m h Hm HL.
  - exists m, h. split; [reflexivity|]. split; [exact Hm|]. intros F. split; [split; [exact F|constructor]|]. intros X S mu G HG H i j Hi Hj.
    cbn. rewrite Nat.mul_0_r. cbn [pow]. rewrite Rmult_1_l. apply H; assumption.
  - inversion HL as [|? ? La HL']; subst.
    pose proof (repM_nth n n a f64_zero La) as Ha. set (fa := fun i j => nth (j * n + i) a f64_zero) in *.
    destruct (mat_mul_spec n n n m a h fa Hm Ha) as (x & Ex & Hx). cbn [mul_all]. rewrite Ex. cbn [bind].
    destruct (IH x _ Hx HL') as (r & k & Er & Hr & K). exists r, k. split; [exact Er|]. split; [exact Hr|]. intros F.
    destruct (K F) as ((FX & FL) & KX). split.
    + split.
      * intros i j Hi Hj. pose proof (ssum_fin_terms _ n (FX i i Hi Hi) j Hj) as P. cbn [smul F64Scalar] in P. apply fin_mult in P. apply P.
      * constructor; [|exact FL]. apply (cells_all n a La). intros i j Hi Hj.
        pose proof (ssum_fin_terms _ n (FX i j Hi Hj) i Hi) as P. cbn [smul F64Scalar] in P. apply fin_mult in P. apply P.
    + intros X S mu G HG H i j Hi Hj. cbn [map length].
      set (A := mcells n a).
      specialize (KX (mmulR n X A) (mmulR n S (absM A)) (fun i j => mmulR n mu (absM A) i j + INR n * eta) ((1 + uro) ^ n * G)).
      assert (G2 : 1 <= (1 + uro) ^ n * G).
      { pose proof (g1 n) as Q. apply Rle_trans with (1 * G); [lra|]. apply Rmult_le_compat_r; lra. }
      specialize (KX G2). replace (n * Datatypes.S (length l))%nat with (n * length l + n)%nat by lia.
      rewrite pow_add, (Rmult_assoc _ ((1 + uro) ^ n) G). apply KX; [|exact Hi|exact Hj].
      clear KX. intros p q Hp Hq. pose proof eta_pos as EP.
      assert (NE : 0 <= INR n * eta) by (apply Rmult_le_pos; [apply pos_INR|lra]).
      split; [|split].
      * assert (EA : forall c, (c < n)%nat -> A c q = val (fa c q)) by (intros c Hc; reflexivity).
        pose proof (ssum_error (fun c => h p c) (fun c => fa c q) n (FX p q Hp Hq)) as SE. unfold dot_bound in SE.
        exact (chain_step n (fun c => val (h p c)) (fun c => val (fa c q)) (fun c => X p c) (fun c => S p c) (fun c => mu p c) _ G ((1 + uro) ^ n) (INR n * eta)
          HG (g1 n) NE (fun c Hc => H p c Hp Hc) SE).
      * apply mmul_abs. intros c Hc. apply H; assumption.
      * assert (0 <= mmulR n mu (absM A) p q); [|lra]. apply rsum_nonneg. intros c Hc. apply Rmult_le_pos; [apply H; assumption|apply Rabs_pos].
Qed.
Lemma apply_all_spec : forall (l : list (list f64)) (v : list f64) (h : nat -> f64), repV n v h -> Forall (fun a => length a = (n * n)%nat) l ->
  exists r k, apply_all n v l = Ok r /\ repV n r k /\
  ((forall i, (i < n)%nat -> fin (k i)) ->
   ((forall i, (i < n)%nat -> fin (h i)) /\ Forall (fun a => forall x, In x a -> fin x) l) /\
   forall (X S mu : nat -> R) (G : R), 1 <= G ->
   (forall i, (i < n)%nat -> Rabs (val (h i) - X i) <= G * (S i + mu i) - S i /\ Rabs (X i) <= S i /\ 0 <= mu i) ->
   forall i, (i < n)%nat ->
   Rabs (val (k i) - applyR n X (map (mcells n) l) i) <=
     (1 + uro) ^ (n * length l) * G * (applyR n S (map absM (map (mcells n) l)) i
        + fold_left (fun w A i => mvecR n (absM A) w i + INR n * eta) (map (mcells n) l) mu i)
     - applyR n S (map absM (map (mcells n) l)) i).
Proof.
  induction l as [|a l IH]; intros v h Hv HL.
  - exists v, h. split; [reflexivity|]. split; [exact Hv|]. intros F. split; [split; [exact F|constructor]|]. intros X S mu G HG H i Hi.
    cbn. rewrite Nat.mul_0_r. cbn [pow]. rewrite Rmult_1_l. apply H; assumption.
  - inversion HL as [|? ? La HL']; subst.
    pose proof (repM_nth n n a f64_zero La) as Ha. set (fa := fun i j => nth (j * n + i) a f64_zero) in *.
    destruct (mat_mul_vec_spec n n a v fa h Ha Hv) as (x & Ex & Hx). cbn [apply_all]. rewrite Ex. cbn [bind].
    destruct (IH x _ Hx HL') as (r & k & Er & Hr & K). exists r, k. split; [exact Er|]. split; [exact Hr|]. intros F.
    destruct (K F) as ((FX & FL) & KX). split.
    + split.
      * intros i Hi. pose proof (ssum_fin_terms _ n (FX i Hi) i Hi) as P. cbn [smul F64Scalar] in P. apply fin_mult in P. apply P.
      * constructor; [|exact FL]. apply (cells_all n a La). intros i j Hi Hj.
        pose proof (ssum_fin_terms _ n (FX i Hi) j Hj) as P. cbn [smul F64Scalar] in P. apply fin_mult in P. apply P.
    + intros X S mu G HG H i Hi. cbn [map length].
      set (A := mcells n a).
      specialize (KX (mvecR n A X) (mvecR n (absM A) S) (fun i => mvecR n (absM A) mu i + INR n * eta) ((1 + uro) ^ n * G)).
      assert (G2 : 1 <= (1 + uro) ^ n * G).
      { pose proof (g1 n) as Q. apply Rle_trans with (1 * G); [lra|]. apply Rmult_le_compat_r; lra. }
      specialize (KX G2). replace (n * Datatypes.S (length l))%nat with (n * length l + n)%nat by lia.
      rewrite pow_add, (Rmult_assoc _ ((1 + uro) ^ n) G). apply KX; [|exact Hi].
      clear KX. intros p Hp. pose proof eta_pos as EP.
      assert (NE : 0 <= INR n * eta) by (apply Rmult_le_pos; [apply pos_INR|lra]).
      assert (CM : forall f g, rsum n (fun c => f c * g c) = rsum n (fun c => g c * f c)) by (intros; apply rsum_ext; intros; ring).
      split; [|split].
      * pose proof (ssum_error (fun c => fa p c) (fun c => h c) n (FX p Hp)) as SE. unfold dot_bound in SE.
        unfold mvecR. rewrite (CM (fun c => A p c) X), (CM (fun c => absM A p c) S), (CM (fun c => absM A p c) mu).
        apply (chain_step n (fun c => val (h c)) (fun c => val (fa p c)) X S mu _ G ((1 + uro) ^ n) (INR n * eta) HG (g1 n) NE H).
        rewrite (CM (fun c => val (h c))).
        rewrite (rsum_ext n (fun c => Rabs (val (h c) * val (fa p c))) (fun c => Rabs (val (fa p c) * val (h c)))) by (intros; f_equal; ring).
        exact SE.
      * unfold mvecR. eapply Rle_trans; [apply rsum_abs|]. apply rsum_le. intros c Hc. rewrite Rabs_mult. apply Rmult_le_compat_l; [apply Rabs_pos|apply H; exact Hc].
      * assert (0 <= mvecR n (absM A) mu p); [|lra]. apply rsum_nonneg. intros c Hc. apply Rmult_le_pos; [apply Rabs_pos|apply H; assumption].
Qed.
End Chain.

Lemma mul_assign_same (cfg : Cfg) (n : nat) : forall (l : list (list f64)) (m : list f64), length m = (n * n)%nat ->
  Forall (fun a => length a = (n * n)%nat) l -> mul_assign_all n m l = mul_all n m l.
Proof.
  induction l as [|a l IH]; intros m Lm HL; [reflexivity|]. inversion HL as [|? ? La HL']; subst.
  destruct (mat_rep n n m Lm) as (h & Hm). destruct (mat_rep n n a La) as (fa & Ha).
  destruct (mat_mul_spec n n n m a h fa Hm Ha) as (x & Ex & Hx). destruct (mat_mul_assign_spec n m a h fa Hm Ha) as (y & Ey & Hy).
  cbn [mul_assign_all mul_all]. rewrite Ex, Ey. cbn [bind]. assert (x = y) as -> by exact (repM_inj _ _ _ _ _ Hx Hy). apply IH; [apply Hy|exact HL'].
Qed.

(** C148.  A chain m * a1 * ... * ak of n x n matrices of doubles, for any n and
    any k, with * or *=: if no cell of the result is infinite or NaN, then no
    operand had such a cell and every cell of the result differs from the exact
    product by at most ((1 + 2^-53)^(n k) - 1) times the product of the absolute
    values, plus what underflow may take (at most n 2^-1075 per product). *)
Theorem C148_matrix_chain :
  forall (cfg : Cfg) (n : nat) (m : list f64) (l : list (list f64)),
  length m = (n * n)%nat -> Forall (fun a => length a = (n * n)%nat) l ->
  exists r, mul_all n m l = Ok r /\ mul_assign_all n m l = Ok r /\ length r = (n * n)%nat /\
  ((forall x, In x r -> fin x) ->
   Forall (fun a => forall x, In x a -> fin x) (m :: l) /\
   let As := map (mcells n) l in
   let q := (1 + / 2 ^ 53) ^ (n * length l) in
   forall i j, (i < n)%nat -> (j < n)%nat ->
     Rabs (mcells n r i j - chainR n (mcells n m) As i j) <=
       (q - 1) * chain_absR n (mcells n m) As i j + q * chain_lossR n (INR n / 2 ^ 1075) As i j).
Proof.
  intros cfg n m l Lm HL. pose proof (repM_nth n n m f64_zero Lm) as Hm.
  destruct (mul_all_spec cfg n l m _ Hm HL) as (r & k & Er & Hr & K). exists r. split; [exact Er|].
  split; [rewrite mul_assign_same by assumption; exact Er|]. split; [apply Hr|]. intros F.
  destruct K as ((F1 & F2) & K).
  { intros i j Hi Hj. apply F. apply (nth_error_In r (j * n + i)). apply Hr; assumption. }
  split; [constructor; [apply (cells_all n m Lm); exact F1|exact F2]|]. intros As q i j Hi Hj.
  specialize (K (mcells n m) (absM (mcells n m)) (fun _ _ => 0) 1 (Rle_refl 1)).
  rewrite (rep_mcells n r k Hr i j Hi Hj).
  eapply Rle_trans; [apply K; [|exact Hi|exact Hj]|].
  - intros p c Hp Hc. split; [|split; [apply Rle_refl|lra]].
    change (val (nth (c * n + p) m f64_zero)) with (mcells n m p c). rewrite Rminus_diag_eq, Rabs_R0 by reflexivity. lra.
  - unfold chain_absR, chain_lossR. fold As. fold uro in q. unfold Rdiv. fold eta.
    change (fun Y A i j => mmulR n Y (absM A) i j + INR n * / 2 ^ 1075) with (fun Y A i j => mmulR n Y (absM A) i j + INR n * eta).
    fold q. lra.
Qed.
Print Assumptions C148_matrix_chain.

(** Pushing a vector through a chain of matrices. *)
Theorem C148_vector_chain :
  forall (cfg : Cfg) (n : nat) (v : list f64) (l : list (list f64)),
  length v = n -> Forall (fun a => length a = (n * n)%nat) l ->
  exists r, apply_all n v l = Ok r /\ length r = n /\
  ((forall x, In x r -> fin x) ->
   (forall x, In x v -> fin x) /\ Forall (fun a => forall x, In x a -> fin x) l /\
   let As := map (mcells n) l in
   let q := (1 + / 2 ^ 53) ^ (n * length l) in
   forall i, (i < n)%nat ->
     Rabs (vcells r i - applyR n (vcells v) As i) <=
       (q - 1) * apply_absR n (vcells v) As i + q * apply_lossR n (INR n / 2 ^ 1075) As i).
Proof.
  intros cfg n v l Lv HL. pose proof (repV_nth n v f64_zero Lv) as Hv.
  destruct (apply_all_spec cfg n l v _ Hv HL) as (r & k & Er & Hr & K). exists r. split; [exact Er|]. split; [apply Hr|]. intros F.
  destruct K as ((F1 & F2) & K).
  { intros i Hi. apply F. apply (nth_error_In r i). apply Hr; assumption. }
  split.
  { intros x Hx. apply (In_nth _ _ f64_zero) in Hx. destruct Hx as (p & Hp & <-). apply F1. lia. }
  split; [exact F2|]. intros As q i Hi.
  specialize (K (vcells v) (fun i => Rabs (vcells v i)) (fun _ => 0) 1 (Rle_refl 1)).
  rewrite (rep_vcells n r k Hr i Hi).
  eapply Rle_trans; [apply K; [|exact Hi]|].
  - intros p Hp. split; [|split; [apply Rle_refl|lra]].
    change (val (nth p v f64_zero)) with (vcells v p). rewrite Rminus_diag_eq, Rabs_R0 by reflexivity. lra.
  - unfold apply_absR, apply_lossR. fold As. fold uro in q. unfold Rdiv. fold eta. fold q.
    change (fun w A i => mvecR n (absM A) w i + INR n * / 2 ^ 1075) with (fun w A i => mvecR n (absM A) w i + INR n * eta). lra.
Qed.
Print Assumptions C148_vector_chain.

(** The growth factor is linear in the length of the chain: up to 2^52 / (2 n)
    products the relative error is at most 2 n k 2^-53. *)
Theorem C148_growth :
  forall n k : nat, 2 * INR (n * k) * / 2 ^ 53 <= 1 -> (1 + / 2 ^ 53) ^ (n * k) - 1 <= 2 * INR (n * k) * / 2 ^ 53.
Proof. intros n k H. fold uro in *. pose proof (pow_bern uro (n * k)) as B. pose proof uro_pos. assert (X := B ltac:(lra) H). lra. Qed.
Print Assumptions C148_growth.

Example C148_hypotheses_met :
  let a := [f64_two; f64_one; f64_zero; f64_one] in
  (length a = (2 * 2)%nat /\ Forall (fun a => length a = (2 * 2)%nat) (repeat a 3)) /\
  (match mul_all (cfg := Build_Cfg false) 2 a (repeat a 3) with Ok r => Some (map bits_of_b64 r) | _ => None end
   = Some [0x4030000000000000 (* 16 *); 0x402E000000000000 (* 15 *); 0; 0x3FF0000000000000]%Z) /\
  (forall x, In x a -> fin x).
Proof.
  intros a. split; [split; [reflexivity|repeat constructor]|]. split.
  - vm_compute; reflexivity.
  - intros x [<-|[<-|[<-|[<-|[]]]]]; reflexivity.
Qed.
