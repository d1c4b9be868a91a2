(** C122, the float counterpart of C118-C121: laws that float-precision results obey exactly,
    although every operation rounds. *)
From Coq Require Import ZArith Reals Lra Psatz Bool.
From Flocq Require Import Core.Core IEEE754.BinarySingleNaN IEEE754.Binary IEEE754.Bits.
From Verif Require Import InstF32  LVector LMatrix Spec LSum PF32 LF32 Spec10f LExt32.
Local Open Scope R_scope.
Local Existing Instance F32Scalar.

(** C122, as C118 for double: the order of the operands does not matter, for all floats including
    infinities and NaNs. *)
Theorem C122_float_dot_commutes :
  forall (cfg : Cfg) (n : nat) (u v : list f32), length u = n -> length v = n ->
  exists r s, vec_dot n u v = Ok r /\ vec_dot n v u = Ok s /\ same r s.
Proof.
  intros cfg n u v Hu Hv. pose proof (repV_nth n u f32_zero Hu) as Ru. pose proof (repV_nth n v f32_zero Hv) as Rv.
  eexists. eexists. split; [apply (vec_dot_spec n u v _ _ Ru Rv)|]. split; [apply (vec_dot_spec n v u _ _ Rv Ru)|].
  apply ssum_same. intros i Hi. apply mult_comm_same.
Qed.
Print Assumptions C122_float_dot_commutes.
Theorem C122_float_distance_symmetric :
  forall (cfg : Cfg) (n : nat) (u v : list f32), length u = n -> length v = n ->
  exists r s r2 s2, vec_squared_distance n u v = Ok r /\ vec_squared_distance n v u = Ok s /\ same r s /\
    vec_distance n u v = Ok r2 /\ vec_distance n v u = Ok s2 /\ same r2 s2.
Proof.
  intros cfg n u v Hu Hv. pose proof (repV_nth n u f32_zero Hu) as Ru. pose proof (repV_nth n v f32_zero Hv) as Rv.
  pose proof (vec_squared_distance_spec n u v _ _ Ru Rv) as E1. pose proof (vec_squared_distance_spec n v u _ _ Rv Ru) as E2.
  unfold vec_distance. rewrite E1, E2. cbn [bind ssqrt F32Scalar]. do 4 eexists.
  assert (S : forall f g : nat -> f32, same (ssum n (fun i => smul (ssub (f i) (g i)) (ssub (f i) (g i)))) (ssum n (fun i => smul (ssub (g i) (f i)) (ssub (g i) (f i))))).
  { intros f g. apply ssum_same. intros i Hi. apply same_square. right. cbn [ssub F32Scalar]. rewrite !value_minus, <- nadd_opp, negated_invol. apply nadd_comm. }
  split; [reflexivity|]. split; [reflexivity|]. split; [apply S|]. split; [reflexivity|]. split; [reflexivity|]. apply same_sqrt, S.
Qed.
Print Assumptions C122_float_distance_symmetric.
Theorem C122_float_sums_commute :
  forall (cfg : Cfg) (n M N : nat) (u v a b : list f32),
  length u = n -> length v = n -> length a = (M * N)%nat -> length b = (M * N)%nat ->
  (exists r s f g, vec_add n u v = Ok r /\ vec_add n v u = Ok s /\ repV n r f /\ repV n s g /\ forall i, (i < n)%nat -> same (f i) (g i)) /\
  (exists r s f g, vec_mul n u v = Ok r /\ vec_mul n v u = Ok s /\ repV n r f /\ repV n s g /\ forall i, (i < n)%nat -> same (f i) (g i)) /\
  (exists r s f g, mat_add M N a b = Ok r /\ mat_add M N b a = Ok s /\ repM M N r f /\ repM M N s g /\
     forall i j, (i < M)%nat -> (j < N)%nat -> same (f i j) (g i j)).
Proof.
  intros cfg n M N u v a b Hu Hv Ha Hb. pose proof (repV_nth n u f32_zero Hu) as Ru. pose proof (repV_nth n v f32_zero Hv) as Rv.
  split; [|split].
  - destruct (vec_zip_spec n (fun x y : f32 => Ok (sadd x y)) u v _ _ _ Ru Rv ltac:(intros; reflexivity)) as (r & E1 & R1).
    destruct (vec_zip_spec n (fun x y : f32 => Ok (sadd x y)) v u _ _ _ Rv Ru ltac:(intros; reflexivity)) as (s & E2 & R2).
    exists r, s. do 2 eexists. split; [exact E1|]. split; [exact E2|]. split; [exact R1|]. split; [exact R2|]. intros i Hi. apply plus_comm_same.
  - destruct (vec_zip_spec n (fun x y : f32 => Ok (smul x y)) u v _ _ _ Ru Rv ltac:(intros; reflexivity)) as (r & E1 & R1).
    destruct (vec_zip_spec n (fun x y : f32 => Ok (smul x y)) v u _ _ _ Rv Ru ltac:(intros; reflexivity)) as (s & E2 & R2).
    exists r, s. do 2 eexists. split; [exact E1|]. split; [exact E2|]. split; [exact R1|]. split; [exact R2|]. intros i Hi. apply mult_comm_same.
  - destruct (mat_rep M N a Ha) as (fa & Ra). destruct (mat_rep M N b Hb) as (fb & Rb).
    destruct (mat_iter_zip_spec M N sadd a (Val b) fa fb Ra Rb) as (r & E1 & R1).
    destruct (mat_iter_zip_spec M N sadd b (Val a) fb fa Rb Ra) as (s & E2 & R2).
    exists r, s. do 2 eexists. split; [exact E1|]. split; [exact E2|]. split; [exact R1|]. split; [exact R2|]. intros i j Hi Hj. apply plus_comm_same.
Qed.
Print Assumptions C122_float_sums_commute.
(** The transpose of a product is the product of the transposes, to the last bit. *)
Theorem C122_float_product_transpose :
  forall (cfg : Cfg) (M N P : nat) (a b : list f32), length a = (M * N)%nat -> length b = (N * P)%nat ->
  exists ab abt at_ bt btat f g,
    mat_mul M N P a b = Ok ab /\ mat_transpose M P ab = Ok abt /\
    mat_transpose M N a = Ok at_ /\ mat_transpose N P b = Ok bt /\ mat_mul P N M bt at_ = Ok btat /\
    repM P M abt f /\ repM P M btat g /\ forall i j, (i < P)%nat -> (j < M)%nat -> same (f i j) (g i j).
Proof.
  intros cfg M N P a b Ha Hb. destruct (mat_rep M N a Ha) as (fa & Ra). destruct (mat_rep N P b Hb) as (fb & Rb).
  destruct (mat_mul_spec M N P a b fa fb Ra Rb) as (ab & E1 & R1). destruct (mat_transpose_spec M P ab _ R1) as (abt & E2 & R2).
  destruct (mat_transpose_spec M N a _ Ra) as (at_ & E3 & R3). destruct (mat_transpose_spec N P b _ Rb) as (bt & E4 & R4).
  destruct (mat_mul_spec P N M bt at_ _ _ R4 R3) as (c & E5 & R5).
  exists ab, abt, at_, bt, c. do 2 eexists. repeat (split; [eassumption|]). intros i j Hi Hj. apply ssum_same. intros k Hk. apply mult_comm_same.
Qed.
Print Assumptions C122_float_product_transpose.
(** Results as bit patterns, for the concrete cases. *)
Definition bits1 (r : res f32) : option Z := match r with Ok x => Some (bits_of_b32 x) | _ => None end.
Definition bitsl (r : res (list f32)) : option (list Z) := match r with Ok x => Some (map bits_of_b32 x) | _ => None end.
(** (1, inf) . (2, -0) is a NaN; the distance of (1, 2) and (2, -0) is the float nearest to sqrt 5. *)
Example C122_hypotheses_met_118 : forall cfg : Cfg,
  match vec_dot 2 [f32_one; f32_inf] [f32_two; f32_neg_zero] with Ok r => is_nan 24 128 r | _ => false end = true /\
  bits1 (vec_distance 2 [f32_one; f32_two] [f32_two; f32_neg_zero]) = Some 0x400F1BBD%Z /\
  bits1 (vec_distance 2 [f32_two; f32_neg_zero] [f32_one; f32_two]) = Some 0x400F1BBD%Z.
Proof. intros [[|]]; (split; [vm_compute; reflexivity|]; split; vm_compute; reflexivity). Qed.

(** C122, as C119 for double: sign symmetry. *)
Theorem C122_float_negated_operand :
  forall (cfg : Cfg) (n : nat) (u v : list f32), length u = n -> length v = n ->
  exists w d l s, vec_neg n u = Ok w /\ vec_dot n u v = Ok d /\ vec_length n u = Ok l /\ vec_squared_length n u = Ok s /\
    (exists d', vec_dot n w v = Ok d' /\ value d' = negated (value d)) /\
    (exists d', vec_dot n v w = Ok d' /\ value d' = negated (value d)) /\
    (exists s', vec_squared_length n w = Ok s' /\ same s' s) /\
    (exists l', vec_length n w = Ok l' /\ same l' l).
Proof.
  intros cfg n u v Hu Hv. pose proof (repV_nth n u f32_zero Hu) as Ru. pose proof (repV_nth n v f32_zero Hv) as Rv.
  destruct (vec_negate_spec n u _ Ru) as (w & Ew & Rw). exists w. unfold vec_neg, vec_length.
  rewrite (vec_dot_spec n u v _ _ Ru Rv), (vec_squared_length_spec n u _ Ru), (vec_dot_spec n w v _ _ Rw Rv), (vec_dot_spec n v w _ _ Rv Rw), (vec_squared_length_spec n w _ Rw).
  cbn [bind ssqrt F32Scalar]. do 3 eexists. split; [exact Ew|]. split; [reflexivity|]. split; [reflexivity|]. split; [reflexivity|].
  assert (S : same (ssum n (fun i => smul (sopp (nth i u f32_zero)) (sopp (nth i u f32_zero)))) (ssum n (fun i => smul (nth i u f32_zero) (nth i u f32_zero)))).
  { apply ssum_same. intros i Hi. apply same_square. right. apply value_opp. }
  repeat split; eexists; (split; [reflexivity|]).
  - apply ssum_opp. intros i Hi. cbn [smul sopp F32Scalar]. rewrite !value_mult, value_opp. apply nmul_opp_l.
  - apply ssum_opp. intros i Hi. cbn [smul sopp F32Scalar]. rewrite !value_mult, value_opp, nmul_opp_r, nmul_comm. reflexivity.
  - exact S.
  - apply same_sqrt, S.
Qed.
Print Assumptions C122_float_negated_operand.
(** a x b is minus b x a in every component, and a x a is zero as long as no
    product of two components overflows. *)
Lemma value_antisym (p q p' q' : f32) : same p p' -> same q q' ->
  value (b32_minus mode_NE q' p') = negated (value (b32_minus mode_NE p q)).
Proof.
  intros Hp Hq. assert (V : forall x y, same x y -> value x = value y).
  { intros x y [->|[H1 H2]]; [reflexivity|]. destruct x, y; try discriminate; reflexivity. }
  rewrite !value_minus, <- (V _ _ Hp), <- (V _ _ Hq), <- nadd_opp, negated_invol. apply nadd_comm.
Qed.
Theorem C122_float_cross_antisymmetric :
  forall (cfg : Cfg) (a b : list f32), length a = 3%nat -> length b = 3%nat ->
  exists c d f g, vec_cross a b = Ok c /\ vec_cross b a = Ok d /\ repV 3 c f /\ repV 3 d g /\
    forall i, (i < 3)%nat -> value (g i) = negated (value (f i)).
Proof.
  intros cfg a b Ha Hb. destruct (len3 a Ha) as (x & y & z & ->). destruct (len3 b Hb) as (x' & y' & z' & ->).
  do 4 eexists. split; [reflexivity|]. split; [reflexivity|]. split; [apply repV_3|]. split; [apply repV_3|].
  intros [|[|[|i]]] Hi; [| | |lia]; cbn [ssub smul F32Scalar]; apply value_antisym; apply mult_comm_same.
Qed.
Print Assumptions C122_float_cross_antisymmetric.
Theorem C122_float_cross_with_itself :
  forall (cfg : Cfg) (a : list f32), length a = 3%nat ->
  exists c f, vec_cross a a = Ok c /\ repV 3 c f /\
    forall i, (i < 3)%nat -> value (f i) = Number 0 \/ value (f i) = NotANumber.
Proof.
  intros cfg a Ha. destruct (len3 a Ha) as (x & y & z & ->).
  do 2 eexists. split; [reflexivity|]. split; [apply repV_3|].
  assert (Z : forall p q, let v := value (b32_minus mode_NE (b32_mult mode_NE p q) (b32_mult mode_NE q p)) in v = Number 0 \/ v = NotANumber).
  { intros p q v. unfold v. rewrite value_minus, !value_mult, (nmul_comm (value q)). destruct (nmul (value p) (value q)) as [|s|r]; cbn.
    - right. reflexivity.
    - right. destruct s; reflexivity.
    - left. replace (r + - r) with 0 by ring. unfold rnx. rewrite rnd_0, Rabs_R0, Rlt_bool_true by apply bpow_gt_0. reflexivity. }
  intros [|[|[|i]]] Hi; [| | |lia]; cbn [ssub smul F32Scalar]; apply Z.
Qed.
Print Assumptions C122_float_cross_with_itself.
Example C122_hypotheses_met_119 : forall cfg : Cfg,
  bitsl (vec_cross [f32_one; f32_two; f32_half] [f32_half; f32_one; f32_one]) = Some [0x3FC00000; 0xBF400000; 0]%Z /\
  bitsl (vec_cross [f32_half; f32_one; f32_one] [f32_one; f32_two; f32_half]) = Some [0xBFC00000; 0x3F400000; 0]%Z /\
  bitsl (vec_neg 2 [f32_one; f32_zero]) = Some [0xBF800000; 0x80000000]%Z.
Proof. intros [[|]]; (split; [vm_compute; reflexivity|]; split; vm_compute; reflexivity). Qed.

(** C122, as C121 for double: length() of any vector without NaN is a number at least 0 (or
    +infinity), and grows with the absolute values of the components. *)
Theorem C122_float_length_never_nan :
  forall (cfg : Cfg) (n : nat) (v : list f32) (a : nat -> f32), repV n v a ->
  (forall i, (i < n)%nat -> value (a i) <> NotANumber) ->
  exists s l, vec_squared_length n v = Ok s /\ vec_length n v = Ok l /\ at_most (Number 0) (value s) /\ at_most (Number 0) (value l).
Proof.
  intros cfg n v a Hv Ha. unfold vec_length. rewrite (vec_squared_length_spec n v a Hv). cbn [bind ssqrt F32Scalar].
  do 2 eexists. split; [reflexivity|]. split; [reflexivity|].
  destruct (ssum_mono n (fun i => smul (a i) (a i)) (fun i => smul (a i) (a i))) as (S & _).
  { intros i Hi. cbn [smul F32Scalar]. rewrite value_mult. pose proof (nsq_nonneg _ (Ha i Hi)) as P. split; [exact P|]. apply at_most_refl.
    intros E. rewrite E in P. exact P. }
  split; [exact S|]. rewrite value_sqrt. refine (proj2 (nsqrt_mono _ _ S (at_most_refl _ _))). intros E. rewrite E in S. exact S.
Qed.
Print Assumptions C122_float_length_never_nan.
Theorem C122_float_length_monotone :
  forall (cfg : Cfg) (n : nat) (v w : list f32) (a b : nat -> f32), repV n v a -> repV n w b ->
  (forall i, (i < n)%nat -> sleb (sabs (a i)) (sabs (b i)) = true) ->
  exists l m, vec_length n v = Ok l /\ vec_length n w = Ok m /\ sleb l m = true.
Proof.
  intros cfg n v w a b Hv Hw H. unfold vec_length. rewrite (vec_squared_length_spec n v a Hv), (vec_squared_length_spec n w b Hw). cbn [bind ssqrt F32Scalar].
  do 2 eexists. split; [reflexivity|]. split; [reflexivity|]. cbn [sleb F32Scalar]. apply Bleb_at_most. rewrite !value_sqrt.
  destruct (ssum_mono n (fun i => smul (a i) (a i)) (fun i => smul (b i) (b i))) as (S & L).
  { intros i Hi. specialize (H i Hi). cbn [sleb sabs smul F32Scalar] in *. apply Bleb_at_most in H. rewrite !value_abs in H. rewrite !value_mult. split; [|apply nsq_mono; exact H].
    apply nsq_nonneg. intros E. rewrite E in H. exact H. }
  apply (nsqrt_mono _ _ S L).
Qed.
Print Assumptions C122_float_length_monotone.
(** (2^664, 1) is at most (2^665, -1) componentwise; both lengths overflow. *)
Example C122_hypotheses_met_121 :
  let a := b32_of_bits 0x71800000 in let b := b32_of_bits 0x72000000 in let m := b32_of_bits 0xBF800000 in
  Bleb32 (b32_abs a) (b32_abs b) = true /\ Bleb32 (b32_abs f32_one) (b32_abs m) = true /\
  forall cfg : Cfg, bits1 (vec_length 2 [a; f32_one]) = Some 0x7F800000%Z /\ bits1 (vec_length 2 [f32_one; m]) = Some 0x3FB504F3%Z.
Proof. cbv zeta. split; [vm_compute; reflexivity|]. split; [vm_compute; reflexivity|]. intros [[|]]; split; vm_compute; reflexivity. Qed.

(** C122, as C120 for double: multiplying a matrix or a vector of finite floats with IDENTITY
    changes no number (only -0 becomes 0). *)
Lemma rnx_val x : fin x -> rnx (val x) = Number (val x).
Proof.
  intros F. unfold rnx, val. rewrite round_generic; [|apply valid_rnd_N|apply (generic_format_B2R 24 128)].
  rewrite Rlt_bool_true; [reflexivity|]. apply (abs_B2R_lt_emax 24 128).
Qed.
Lemma rnx_0 : rnx 0 = Number 0.
Proof. unfold rnx. rewrite rnd_0, Rabs_R0, Rlt_bool_true by apply bpow_gt_0. reflexivity. Qed.
Lemma value_one : value f32_one = Number 1.
Proof. rewrite value_fin by reflexivity. rewrite val_one. reflexivity. Qed.
Lemma value_id_mult i k x : fin x -> value (b32_mult mode_NE (idf i k) x) = Number (if (i =? k)%nat then val x else 0).
Proof.
  intros F. rewrite value_mult, (value_fin x F). unfold idf. destruct (i =? k)%nat.
  - change (value sone) with (value f32_one). rewrite value_one. cbn [nmul]. rewrite Rmult_1_l. apply rnx_val. exact F.
  - change (value szero) with (Number 0). cbn [nmul]. rewrite Rmult_0_l. apply rnx_0.
Qed.
Lemma sum_id (n i : nat) (t x : nat -> f32) : (forall k, (k < n)%nat -> fin (x k) /\ value (t k) = Number (if (i =? k)%nat then val (x k) else 0)) ->
  value (ssum n t) = Number (if (i <? n)%nat then val (x i) else 0).
Proof.
  induction n as [|n IH]; intros H; [reflexivity|]. cbn [ssum]. cbn [sadd F32Scalar]. rewrite value_plus, IH by (intros; apply H; lia).
  destruct (H n ltac:(lia)) as [F E]. rewrite E. cbn [nadd]. destruct (Nat.ltb_spec i n), (Nat.ltb_spec i (S n)), (Nat.eqb_spec i n); try lia.
  - rewrite Rplus_0_r. apply rnx_val, (H i). lia.
  - subst i. rewrite Rplus_0_l. apply rnx_val. exact F.
  - rewrite Rplus_0_l. apply rnx_0.
Qed.
Theorem C122_float_identity :
  forall (cfg : Cfg) (M N : nat) (m v : list f32) (f : nat -> nat -> f32) (g : nat -> f32), repM M N m f -> repV N v g ->
  (forall i j, (i < M)%nat -> (j < N)%nat -> fin (f i j)) -> (forall j, (j < N)%nat -> fin (g j)) ->
  exists im in_ a b c fa fb fc, mat_IDENTITY M = Ok im /\ mat_IDENTITY N = Ok in_ /\
    mat_mul M M N im m = Ok a /\ mat_mul M N N m in_ = Ok b /\ mat_mul_vec N N in_ v = Ok c /\
    repM M N a fa /\ repM M N b fb /\ repV N c fc /\
    (forall i j, (i < M)%nat -> (j < N)%nat -> value (fa i j) = value (f i j) /\ value (fb i j) = value (f i j)) /\
    (forall j, (j < N)%nat -> value (fc j) = value (g j)).
Proof.
  intros cfg M N m v f g Hm Hv Fm Fv.
  assert (ID : forall n, returns (mat_IDENTITY n) (fun r => repM n n r (idf (T := f32)))).
  { intros n. unfold mat_IDENTITY. eapply returns_bind; [apply mat_default_spec|]. intros d Hd. eapply mat_identity_spec. exact Hd. }
  destruct (ID M) as (im & Em & Hi). destruct (ID N) as (in_ & En & Hn).
  destruct (mat_mul_spec M M N im m _ _ Hi Hm) as (a & Ea & Ra). destruct (mat_mul_spec M N N m in_ _ _ Hm Hn) as (b & Eb & Rb).
  destruct (mat_mul_vec_spec N N in_ v _ _ Hn Hv) as (c & Ec & Rc).
  exists im, in_, a, b, c. do 3 eexists. repeat (split; [eassumption|]). split.
  - intros i j Hi' Hj. rewrite (value_fin _ (Fm i j Hi' Hj)). split.
    + rewrite (sum_id M i _ (fun k => f k j)); [destruct (Nat.ltb_spec i M); [reflexivity|lia]|].
      intros k Hk. split; [apply Fm; assumption|]. apply value_id_mult, Fm; assumption.
    + rewrite (sum_id N j _ (fun k => f i k)); [destruct (Nat.ltb_spec j N); [reflexivity|lia]|].
      intros k Hk. split; [apply Fm; assumption|]. cbn [smul F32Scalar]. rewrite value_mult, nmul_comm, <- value_mult.
      rewrite value_id_mult by (apply Fm; assumption). rewrite Nat.eqb_sym. reflexivity.
  - intros j Hj. rewrite (value_fin _ (Fv j Hj)).
    rewrite (sum_id N j _ g); [destruct (Nat.ltb_spec j N); [reflexivity|lia]|].
    intros k Hk. split; [apply Fv; assumption|]. apply value_id_mult, Fv; assumption.
Qed.
Print Assumptions C122_float_identity.
(** One infinite or NaN cell turns every other cell of its column into NaN. *)
Lemma sum_nan n (t : nat -> f32) k : (k < n)%nat -> value (t k) = NotANumber -> value (ssum n t) = NotANumber.
Proof.
  induction n as [|n IH]; intros Hk E; [lia|]. cbn [ssum]. cbn [sadd F32Scalar]. rewrite value_plus.
  destruct (Nat.eq_dec k n) as [->|]; [rewrite E; destruct (value (ssum n t)); reflexivity|]. rewrite IH by (lia || exact E). reflexivity.
Qed.
Theorem C122_float_infinite_cells :
  forall (cfg : Cfg) (M N : nat) (m : list f32) (f : nat -> nat -> f32) (k j : nat), repM M N m f ->
  (k < M)%nat -> (j < N)%nat -> ~ fin (f k j) ->
  exists im a fa, mat_IDENTITY M = Ok im /\ mat_mul M M N im m = Ok a /\ repM M N a fa /\
    forall i, (i < M)%nat -> i <> k -> value (fa i j) = NotANumber.
Proof.
  intros cfg M N m f k j Hm Hk Hj NF.
  assert (ID : forall n, returns (mat_IDENTITY n) (fun r => repM n n r (idf (T := f32)))).
  { intros n. unfold mat_IDENTITY. eapply returns_bind; [apply mat_default_spec|]. intros d Hd. eapply mat_identity_spec. exact Hd. }
  destruct (ID M) as (im & Em & Hi). destruct (mat_mul_spec M M N im m _ _ Hi Hm) as (a & Ea & Ra).
  exists im, a. eexists. split; [exact Em|]. split; [exact Ea|]. split; [exact Ra|]. intros i Hi' Hne.
  apply (sum_nan M _ k Hk). cbn [smul F32Scalar]. rewrite value_mult. unfold idf. destruct (Nat.eqb_spec i k); [congruence|].
  change (value szero) with (Number 0). destruct (f k j) as [s|s|s p0 H0|s m0 e H0] eqn:E; try (exfalso; apply NF; reflexivity); cbn; [|reflexivity].
  rewrite Req_bool_true; reflexivity.
Qed.
Print Assumptions C122_float_infinite_cells.
Example C122_hypotheses_met_120 :
  let m := [f32_two; f32_neg_zero; f32_half; f32_one] in
  (forall cfg : Cfg, bitsl (i <- mat_IDENTITY 2 ;; mat_mul 2 2 2 i m) = Some [0x40000000; 0; 0x3F000000; 0x3F800000]%Z) /\
  (forall x, In x m -> fin x) /\ ~ fin f32_inf.
Proof.
  cbv zeta. split; [|split].
  - intros [[|]]; vm_compute; reflexivity.
  - intros x [<-|[<-|[<-|[<-|[]]]]]; reflexivity.
  - intros H. discriminate H.
Qed.
