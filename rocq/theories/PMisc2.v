(** Properties C132 (version macros), C133 (iterators and forwarding functions). *)
From Coq Require Import ZArith Lia List.
From Verif Require Import MMisc2 LMatrix PMatrix5 InstZ.
Import ListNotations.
Local Open Scope nat_scope.

(** ** Versions *)
(** A version as one number: its three components as digits to base B. *)
Definition vnumber (B : Z) (a b c : Z) : Z := ((a * B + b) * B + c)%Z.
Definition digit (B x : Z) : Prop := (0 <= x < B)%Z.
(** C132: the macros order versions as the numbers written with the components
    as digits are ordered, whatever base exceeds them. *)
Theorem C132_version_order :
  forall (B : Z) (v : version) (a b c : Z),
  digit B (v_major v) -> digit B (v_minor v) -> digit B (v_patch v) -> digit B a -> digit B b -> digit B c ->
  let n := vnumber B (v_major v) (v_minor v) (v_patch v) in let k := vnumber B a b c in
  (version_gt v a b c = true <-> (n > k)%Z) /\ (version_ge v a b c = true <-> (n >= k)%Z) /\
  (version_lt v a b c = true <-> (n < k)%Z) /\ (version_le v a b c = true <-> (n <= k)%Z).
Proof.
  intros B [A1 A2 A3] a b c HA HB HC Ha Hb Hc n k. cbn [v_major v_minor v_patch] in *. unfold digit in *.
  assert (D : forall x y x' y', (0 <= y < B)%Z -> (0 <= y' < B)%Z -> (x < x')%Z -> (x * B + y < x' * B + y')%Z) by (intros; nia).
  assert (L : forall p q r p' q' r', (0 <= q < B)%Z -> (0 <= r < B)%Z -> (0 <= q' < B)%Z -> (0 <= r' < B)%Z ->
     (p < p' \/ p = p' /\ (q < q' \/ q = q' /\ r < r'))%Z -> (vnumber B p q r < vnumber B p' q' r')%Z).
  { intros p q r p' q' r' H1 H2 H3 H4 [H|[-> [H|[-> H]]]]; unfold vnumber; [apply D; try assumption; apply D; assumption|apply D; try assumption; lia|lia]. }
  unfold version_gt, version_ge, version_lt, version_le. cbn [v_major v_minor v_patch].
  rewrite !Bool.orb_true_iff, !Bool.andb_true_iff, !Bool.orb_true_iff, !Bool.andb_true_iff. rewrite !Z.gtb_lt, !Z.ltb_lt, !Z.eqb_eq, !Z.geb_le, !Z.leb_le.
  pose proof (L A1 A2 A3 a b c HB HC Hb Hc) as L1. pose proof (L a b c A1 A2 A3 Hb Hc HB HC) as L2. fold n k in L1, L2.
  assert (E : (A1 = a /\ A2 = b /\ A3 = c -> n = k)%Z) by (intros (-> & -> & ->); reflexivity).
  clear L D. clearbody n k. lia.
Qed.
Print Assumptions C132_version_order.
(** C132: for all versions exactly one of older, equal, newer holds, and GE and LE
    are the negations of LT and GT. *)
Theorem C132_version_trichotomy :
  forall (v : version) (a b c : Z),
  version_ge v a b c = negb (version_lt v a b c) /\ version_le v a b c = negb (version_gt v a b c) /\
  (version_ge v a b c = true /\ version_le v a b c = true <-> v = {| v_major := a; v_minor := b; v_patch := c |}) /\
  (version_lt v a b c = true -> version_gt v a b c = false).
Proof.
  intros [A1 A2 A3] a b c. unfold version_gt, version_ge, version_lt, version_le. cbn [v_major v_minor v_patch].
  destruct (Z.gtb_spec A1 a), (Z.ltb_spec A1 a), (Z.eqb_spec A1 a); try lia; cbn [orb andb negb];
  destruct (Z.gtb_spec A2 b), (Z.ltb_spec A2 b), (Z.eqb_spec A2 b); try lia; cbn [orb andb negb];
  destruct (Z.gtb_spec A3 c), (Z.ltb_spec A3 c), (Z.leb_spec A3 c), (Z.geb_spec A3 c); try lia; cbn [orb andb negb];
  (split; [reflexivity|]; split; [reflexivity|]; split; [|congruence]; split; [intros (? & ?); try discriminate; f_equal; lia|intros X; injection X as ? ? ?; try (exfalso; lia); split; reflexivity]).
Qed.
Print Assumptions C132_version_trichotomy.
Example C132_hypotheses_met : let v := {| v_major := 1; v_minor := 7; v_patch := 0 |} in
  digit 1000 (v_major v) /\ digit 1000 (v_minor v) /\ digit 1000 (v_patch v) /\ digit 1000 1 /\ digit 1000 6 /\ digit 1000 2 /\ version_gt v 1 6 2 = true.
Proof. unfold digit. cbn. repeat split; lia. Qed.

(** ** Iterators *)
Lemma runs_for_n {S : Type} (body : nat -> S -> res S) n : forall it s r, runs body (it + n) it s r <-> r = for_n n it body s.
Proof.
  induction n as [|n IH]; intros it s r.
  - rewrite Nat.add_0_r. split; [|intros ->; constructor]. intros H. inversion H; subst; try reflexivity; congruence.
  - cbn [for_n]. assert (NE : it <> it + Datatypes.S n) by lia. replace (it + Datatypes.S n) with (Datatypes.S it + n) by lia. replace (it + Datatypes.S n) with (Datatypes.S it + n) in NE by lia. split.
    + intros H. inversion H; subst; try lia.
      * rewrite H1. cbn [bind]. apply IH. exact H2.
      * rewrite H1. reflexivity.
      * rewrite H1. reflexivity.
      * rewrite H1. reflexivity.
    + intros ->. destruct (body it s) as [s'| | |] eqn:E; cbn [bind].
      * eapply runs_next; [exact NE|exact E|]. apply IH. reflexivity.
      * apply runs_throw; assumption.
      * apply runs_ub; assumption.
      * apply runs_nonfin; assumption.
Qed.
(** C133: the loop over [begin(), end()) of a matrix or vector terminates, visits
    every element once, in storage order, and is the index loop over all
    elements. *)
Theorem C133_iterator_loop :
  forall (S : Type) (body : nat -> S -> res S) (M N : nat) (s : S) (r : res S),
  (runs body (mat_end M N) mat_begin s r <-> r = for_ 0 (M * N) body s) /\
  (runs body (vec_end M) vec_begin s r <-> r = for_ 0 M body s).
Proof.
  intros S body M N s r. unfold for_. rewrite !Nat.sub_0_r. split; [apply (runs_for_n body (M * N) 0)|apply (runs_for_n body M 0)].
Qed.
Print Assumptions C133_iterator_loop.
Lemma for_push {A : Type} (l : list A) n it acc : it + n <= length l ->
  for_n n it (fun i out => x <- rd l i ;; Ok (out ++ [x])) acc = Ok (acc ++ firstn n (skipn it l)).
Proof.
  revert it acc. induction n as [|n IH]; intros it acc H; [rewrite app_nil_r; reflexivity|].
  cbn [for_n]. destruct (nth_error l it) as [x|] eqn:E; [|apply nth_error_None in E; lia].
  unfold rd. rewrite E. cbn [bind]. rewrite IH by lia. rewrite <- app_assoc. do 2 f_equal.
  clear IH acc H. revert it E. induction l as [|y l IHl]; intros [|it] E; try discriminate; cbn in *; [congruence|]. apply IHl, E.
Qed.
(** C133: copying [begin(), end()) copies the storage; its k-th element is the
    cell in row k mod M of column k / M; [begin() + c M + r] is the cell (r, c),
    reading and writing; as many elements as rows times columns; and the pointer
    conversion is the same pointer. *)
Theorem C133_iterator_cells :
  forall (cfg : Cfg) (T : Type) (M N : nat) (m : list T) (f : nat -> nat -> T), repM M N m f ->
  runs (fun it out => x <- it_get m it ;; Ok (out ++ [x])) (mat_end M N) mat_begin [] (Ok m) /\
  (forall k, k < mat_size M N -> it_get m (mat_begin + k) = Ok (f (k mod M) (k / M))) /\
  (forall r c, r < M -> c < N -> it_get m (mat_begin + (c * M + r)) = Ok (f r c) /\ it_get m (mat_begin + (c * M + r)) = mat_at M N m r c) /\
  (forall r c x, r < M -> c < N -> exists m', it_put m (mat_begin + (c * M + r)) x = Ok m' /\ mat_put M N m r c x = Ok m' /\
     repM M N m' (fun i j => if (i =? r) && (j =? c) then x else f i j)) /\
  mat_end M N - mat_begin = mat_number_of_rows M N * mat_number_of_columns M N /\ mat_ptr = mat_begin.
Proof.
  intros cfg T M N m f Hm. pose proof (repM_len _ _ _ _ Hm) as L.
  assert (C : forall r c, r < M -> c < N -> it_get m (mat_begin + (c * M + r)) = Ok (f r c)).
  { intros r c Hr Hc. unfold it_get, rd. cbn [mat_begin Nat.add]. rewrite (proj2 Hm r c Hr Hc). reflexivity. }
  split; [|split; [|split; [|split; [|split; [apply Nat.sub_0_r|reflexivity]]]]].
  - apply (proj2 (proj1 (C133_iterator_loop _ _ M N _ _))). unfold for_. rewrite (Nat.sub_0_r (M * N)). unfold it_get. rewrite for_push by lia. cbn [app skipn]. rewrite <- L, firstn_all. reflexivity.
  - intros k Hk. unfold mat_size in Hk. assert (MZ : M <> 0) by (intros ->; cbn in Hk; lia).
    pose proof (Nat.div_mod k M MZ) as D. pose proof (Nat.mod_upper_bound k M MZ).
    replace k with (k / M * M + k mod M) at 1 by (rewrite (Nat.mul_comm (k / M)); lia). apply C; [assumption|]. apply Nat.div_lt_upper_bound; [exact MZ|lia].
  - intros r c Hr Hc. split; [apply C; assumption|]. rewrite (C r c Hr Hc). symmetry. apply mat_at_ok; assumption.
  - intros r c x Hr Hc. destruct (mat_put_rep M N m f r c x Hm Hr Hc) as (m' & E & H). exists m'. split; [|split; [exact E|exact H]].
    rewrite <- E. symmetry. apply mat_put_ok; assumption.
Qed.
Print Assumptions C133_iterator_cells.

(** C133: the same for vectors: size() elements, the k-th of them the component
    that at( k ) reads and writes. *)
Theorem C133_vector_iterators :
  forall (cfg : Cfg) (T : Type) (M : nat) (v : list T) (f : nat -> T), repV M v f ->
  runs (fun it out => x <- it_get v it ;; Ok (out ++ [x])) (vec_end M) vec_begin [] (Ok v) /\
  vec_size M = length v /\ vec_end M - vec_begin = vec_size M /\
  (forall k, k < vec_size M -> it_get v (vec_begin + k) = Ok (f k) /\ it_get v (vec_begin + k) = vat M v k /\
     forall x, it_put v (vec_begin + k) x = vset M v k x) /\
  (forall k, vec_size M <= k -> it_get v (vec_begin + k) = UB).
Proof.
  intros cfg T M v f Hv. pose proof (proj1 Hv) as L. split; [|split; [symmetry; exact L|split; [apply Nat.sub_0_r|split]]].
  - apply (proj2 (proj2 (C133_iterator_loop _ _ M 0 _ _))). unfold for_. rewrite (Nat.sub_0_r M). unfold it_get. rewrite for_push by lia.
    cbn [app skipn]. rewrite <- L, firstn_all. reflexivity.
  - unfold vec_size, vec_begin. cbn [Nat.add]. intros k Hk. assert (E : it_get v k = Ok (f k)) by (unfold it_get, rd; rewrite (proj2 Hv k Hk); reflexivity).
    split; [exact E|]. split; [rewrite E; symmetry; apply (vat_ok M v f k Hv Hk)|].
    intros x. unfold it_put, vset. apply Nat.leb_gt in Hk. rewrite Hk. reflexivity.
  - unfold vec_size, vec_begin, it_get, rd. cbn [Nat.add]. intros k Hk. destruct (nth_error v k) eqn:E; [|reflexivity].
    assert (k < length v) by (apply nth_error_Some; congruence). lia.
Qed.
Print Assumptions C133_vector_iterators.

(** C133: the forwarding functions. *)
Theorem C133_forwarding :
  forall (cfg : Cfg) (T : Type) (ST : Scalar T) (M P N : nat) (a b c : list T) (f g : nat -> nat -> T),
  repM M P a f -> repM P N b g -> length c = M * N ->
  (returns (free_multiply M P N (Val a) (Val b) c) (fun r => repM M N r (fun i j => ssum P (fun p => smul (f i p) (g p j))))) /\
  (forall a' f' tol, repM M P a' f' -> returns (free_equals M P a a' tol)
     (fun r => r = true <-> forall i j, i < M -> j < P -> sltb (sabs (ssub (f i j) (f' i j))) tol = true)) /\
  (forall x y z w x' y' z' w', q_dot_static [x; y; z; w] [x'; y'; z'; w'] = q_dot [x; y; z; w] [x'; y'; z'; w']) /\
  (forall x y z : T, vec_from_osg (x, y, z) = Ok [x; y; z]).
Proof.
  intros cfg T ST M P N a b c f g Ha Hb Lc. destruct (mat_rep M N c Lc) as (h & Hc).
  split; [apply (mat_multiply_spec M P N c a b h f g Hc Ha Hb)|]. split; [|split; reflexivity].
  intros a' f' tol Ha'. exact (mat_equals_by_spec (fun x y => sltb (sabs (ssub x y)) tol) M P a a' f f' Ha Ha').
Qed.
Print Assumptions C133_forwarding.
Local Existing Instance ZScalar.
Example C133_hypotheses_met : repM 2 2 [1; 2; 3; 4]%Z (fun i j => (1 + Z.of_nat i + 2 * Z.of_nat j)%Z) /\
  (forall cfg : Cfg, free_multiply 2 2 2 (Val [1; 2; 3; 4]%Z) (Val [1; 0; 0; 1]%Z) [0; 0; 0; 0]%Z = Ok [1; 2; 3; 4]%Z).
Proof. split; [|reflexivity]. split; [reflexivity|]. intros [|[|i]] [|[|j]] Hi Hj; try lia; reflexivity. Qed.
