(** Properties C149, C150: the QR decomposition of double matrices. *)
From Coq Require Import ZArith Reals Lra Psatz.
From Flocq Require Import Core.Core IEEE754.BinarySingleNaN IEEE754.Binary IEEE754.Bits.
From Verif Require Import InstF LF64 LVector MMatrix LMatrix MMisc Spec Spec5 LSum PFloat LFloat LErr PFloat2 Spec11 Spec12 PChain.
Local Open Scope R_scope.
Local Open Scope list_scope.
Local Existing Instance F64Scalar.
Local Notation rnd := (round radix2 (FLT_exp (-1074) 53) (Znearest (fun x => negb (Z.even x)))).
Local Notation bp := (bpow radix2).

(** ** What the loops compute *)
Section Run.
Context {cfg : Cfg} (M N : nat) (A : list f64) (fA : nat -> nat -> f64).
Context (HA : repM M N A fA) (HMN : (N <= M)%nat).

Fixpoint vv (fQ fR : nat -> nat -> f64) (j i k : nat) : f64 :=
  match i with O => fA k j | S i => b64_minus mode_NE (vv fQ fR j i k) (b64_mult mode_NE (fQ k i) (fR i j)) end.
Definition col_ok (fQ fR : nat -> nat -> f64) (j : nat) : Prop :=
  (forall l, (l < j)%nat -> fR l j = ssum M (fun k => smul (fQ k l) (fA k j))) /\
  fR j j = b64_sqrt mode_NE (ssum M (fun k => smul (vv fQ fR j j k) (vv fQ fR j j k))) /\
  (forall k, (k < M)%nat -> fQ k j = b64_div mode_NE (vv fQ fR j j k) (fR j j)).

Lemma vv_ext fQ fR gQ gR j k : (k < M)%nat -> forall i, (i <= j)%nat ->
  (forall l, (l < i)%nat -> fQ k l = gQ k l /\ fR l j = gR l j) -> vv fQ fR j i k = vv gQ gR j i k.
Proof.
  intros Hk. induction i as [|i IH]; intros Hi H; [reflexivity|]. cbn [vv]. rewrite IH; [|lia|intros; apply H; lia].
  destruct (H i ltac:(lia)) as (-> & ->). reflexivity.
Qed.
Lemma ssum_ext_lt n (f g : nat -> f64) : (forall i, (i < n)%nat -> f i = g i) -> ssum n f = ssum n g.
Proof. induction n as [|n IH]; intros H; [reflexivity|]. cbn [ssum]. rewrite IH, (H n) by (intros; try apply H; lia). reflexivity. Qed.
Lemma col_ok_ext fQ fR gQ gR c :
  (forall k l, (k < M)%nat -> (l <= c)%nat -> fQ k l = gQ k l) -> (forall l, (l <= c)%nat -> fR l c = gR l c) ->
  col_ok fQ fR c -> col_ok gQ gR c.
Proof.
  intros HQ HR (H1 & H2 & H3).
  assert (EV : forall k, (k < M)%nat -> vv fQ fR c c k = vv gQ gR c c k).
  { intros k Hk. apply vv_ext; [exact Hk|lia|]. intros l Hl. split; [apply HQ; lia|apply HR; lia]. }
  split; [|split].
  - intros l Hl. rewrite <- HR, H1 by lia. apply ssum_ext_lt. intros k Hk. rewrite HQ by lia. reflexivity.
  - rewrite <- HR by lia. rewrite H2. f_equal. apply ssum_ext_lt. intros k Hk. rewrite EV by exact Hk. reflexivity.
  - intros k Hk. rewrite <- HQ, <- HR by lia. rewrite <- EV by exact Hk. apply H3. exact Hk.
Qed.

Section Col.
Context (fQ fR : nat -> nat -> f64) (j : nat) (Hj : (j < N)%nat).
Let d (l : nat) : f64 := ssum M (fun k => smul (fQ k l) (fA k j)).
Let fR1 (r c : nat) : f64 := if (c =? j)%nat && (r <? j)%nat then d r else fR r c.
Lemma fR1_j l : (l < j)%nat -> fR1 l j = d l.
Proof. intros H. unfold fR1. rewrite Nat.eqb_refl. destruct (Nat.ltb_spec l j); [reflexivity|lia]. Qed.

Lemma inner_run Q U v q a : repM M M Q fQ -> repM N N U fR -> repV M v (fun k => fA k j) -> length q = M -> length a = M ->
  returns (for_ 0 j (qr_inner M N A j) (Q, U, v, q, a)) (fun s => let '(Q', R', v', q', a') := s in
    Q' = Q /\ repM N N R' fR1 /\ repV M v' (vv fQ fR1 j j) /\ length q' = M /\ length a' = M).
Proof.
  intros HQ HR Hv Hq Ha.
  eapply returns_impl; [apply (for_inv (fun i s => let '(Q', R', v', q', a') := s in
    Q' = Q /\ repM N N R' (fun r c => if (c =? j)%nat && (r <? i)%nat then d r else fR r c) /\ repV M v' (vv fQ fR1 j i) /\
    length q' = M /\ length a' = M))|].
  - lia.
  - split; [reflexivity|]. split; [eapply repM_ext; [exact HR|intros r c _ _; cbn; destruct (r <? 0)%nat eqn:E; [apply Nat.ltb_lt in E; lia|rewrite andb_false_r; reflexivity]]|].
    split; [exact Hv|]. split; [exact Hq|exact Ha].
  - intros i [[[[Q' R'] v'] q'] a'] Hi (-> & HR' & Hv' & Lq & La). unfold qr_inner.
    eapply returns_bind; [eapply (mat_get_column_into_spec M M Q fQ i q'); [exact HQ|apply (repV_nth M q' f64_zero); exact Lq|lia]|].
    intros q2 Hq2. cbv beta in Hq2.
    eapply returns_bind; [eapply (mat_get_column_into_spec M N A fA j a'); [exact HA|apply (repV_nth M a' f64_zero); exact La|lia]|].
    intros a2 Ha2. cbv beta in Ha2.
    rewrite (vec_dot_spec M q2 a2 _ _ Hq2 Ha2). cbn [bind]. fold (d i).
    eapply returns_bind; [eapply (mat_put_rep N N R' _ i j (d i) HR'); lia|]. intros R2 HR2. cbv beta in HR2.
    rewrite (mat_at_ok N N R2 _ i j HR2) by lia. rewrite !Nat.eqb_refl. cbn [andb bind].
    eapply returns_bind; [apply (vec_map_spec M (fun a => Ok (smul a (d i))) q2 _ (fun k => b64_mult mode_NE (fQ k i) (d i)) Hq2); reflexivity|]. intros w Hw.
    eapply returns_bind; [apply (vec_zip_assign_spec M (fun a b => Ok (ssub a b)) v' (Val w) (vv fQ fR1 j i) (fun k => b64_mult mode_NE (fQ k i) (d i)) (vv fQ fR1 j (S i))); [exact Hv'|exact Hw|]|].
    { intros k Hk. cbn [vv ssub F64Scalar]. rewrite fR1_j by lia. reflexivity. }
    intros v2 Hv2. apply returns_ok. split; [reflexivity|]. split; [|split; [exact Hv2|split; [apply Hq2|apply Ha2]]].
    eapply repM_ext; [exact HR2|]. intros r c Hr Hc. cbv beta.
    destruct (Nat.eqb_spec c j) as [->|Hc']; cbn [andb]; [|rewrite andb_false_r; reflexivity].
    rewrite andb_true_r. destruct (Nat.eqb_spec r i) as [->|Hr'].
    + replace (i <? S i)%nat with true by (symmetry; apply Nat.ltb_lt; lia). reflexivity.
    + destruct (Nat.ltb_spec r i), (Nat.ltb_spec r (S i)); auto; lia.
  - intros [[[[Q' R'] v'] q'] a'] H. exact H.
Qed.
End Col.

Definition run_inv (j : nat) (s : @qr_state f64) : Prop :=
  let '(Q, U, v, q, a) := s in exists fQ fR,
  repM M M Q fQ /\ repM N N U fR /\ length v = M /\ length q = M /\ length a = M /\
  (forall c, (c < j)%nat -> col_ok fQ fR c) /\
  (forall r c, (r < M)%nat -> (c < M)%nat -> (j <= c)%nat -> fQ r c = f64_zero) /\
  (forall r c, (r < N)%nat -> (c < N)%nat -> (c < r)%nat \/ (j <= c)%nat -> fR r c = f64_zero).

Lemma run_step j s : (0 <= j < N)%nat -> run_inv j s -> returns (qr_column M N A j s) (run_inv (S j)).
Proof.
  destruct s as [[[[Q U] v] q] a]. intros Hj (fQ & fR & HQ & HR & Lv & Lq & La & HC & HZ & HT). unfold qr_column.
  destruct (mat_get_column_into_spec M N A fA j v _ HA (repV_nth M v f64_zero Lv) ltac:(lia)) as (v1 & -> & Hv1). cbn [bind].
  destruct (inner_run fQ fR j ltac:(lia) Q U v1 q a HQ HR Hv1 Lq La) as ([[[[Q2 R2] v2] q2] a2] & -> & -> & HR2 & Hv2 & Lq2 & La2).
  cbn [bind]. cbv beta in HR2, Hv2.
  set (d := fun l => ssum M (fun k => smul (fQ k l) (fA k j))) in *.
  set (fR1 := fun r c => if (c =? j)%nat && (r <? j)%nat then ssum M (fun k => smul (fQ k r) (fA k j)) else fR r c) in *.
  set (w := vv fQ fR1 j j) in *.
  unfold vec_length. rewrite (vec_squared_length_spec M v2 w Hv2). cbn [bind ssqrt F64Scalar].
  set (len := b64_sqrt mode_NE (ssum M (fun i => smul (w i) (w i)))).
  destruct (mat_put_rep N N R2 fR1 j j len HR2 ltac:(lia) ltac:(lia)) as (R3 & -> & HR3). cbn [bind]. cbv beta in HR3.
  rewrite (mat_at_ok N N R3 _ j j HR3) by lia. rewrite !Nat.eqb_refl. cbn [andb bind].
  destruct (vec_map_spec (T := f64) M (fun a : f64 => sdiv a len) v2 w (fun k => b64_div mode_NE (w k) len) Hv2) as (v3 & E3 & H3); [reflexivity|].
  unfold vec_div_s. rewrite E3. cbn [bind].
  destruct (mat_set_column_spec M M Q fQ j v3 _ HQ H3 ltac:(lia)) as (Q3 & -> & HQ3). cbn [bind]. apply returns_ok.
  set (gQ := fun i c => if (c =? j)%nat then b64_div mode_NE (w i) len else fQ i c) in *.
  set (gR := fun i c => if (i =? j)%nat && (c =? j)%nat then len else fR1 i c) in *.
  assert (Qo : forall r c, c <> j -> gQ r c = fQ r c).
  { intros r c Hc. unfold gQ. destruct (Nat.eqb_spec c j); [congruence|reflexivity]. }
  assert (Ro : forall r c, c <> j -> gR r c = fR r c).
  { intros r c Hc. unfold gR, fR1. destruct (Nat.eqb_spec c j); [congruence|]. rewrite andb_false_r. reflexivity. }
  assert (Rj : forall l, (l < j)%nat -> gR l j = d l).
  { intros l Hl. unfold gR, fR1. rewrite Nat.eqb_refl. destruct (Nat.eqb_spec l j); [lia|]. destruct (Nat.ltb_spec l j); [reflexivity|lia]. }
  assert (Rl : forall l, (l < j)%nat -> gR l j = fR1 l j).
  { intros l Hl. unfold gR. destruct (Nat.eqb_spec l j); [lia|reflexivity]. }
  assert (Rjj : gR j j = len) by (unfold gR; rewrite !Nat.eqb_refl; reflexivity).
  exists gQ, gR. split; [exact HQ3|]. split; [exact HR3|]. split; [apply Hv2|]. split; [exact Lq2|]. split; [exact La2|]. split; [|split].
  - intros c Hc. destruct (Nat.eq_dec c j) as [->|Nc].
    + assert (EV : forall k, (k < M)%nat -> vv gQ gR j j k = w k).
      { intros k Hk. apply vv_ext; [exact Hk|lia|]. intros l Hl. split; [apply Qo; lia|apply Rl; exact Hl]. }
      split; [|split].
      * intros l Hl. rewrite Rj by exact Hl. apply ssum_ext_lt. intros k Hk. rewrite Qo by lia. reflexivity.
      * rewrite Rjj. unfold len. f_equal. apply ssum_ext_lt. intros k Hk. rewrite EV by exact Hk. reflexivity.
      * intros k Hk. rewrite Rjj, EV by exact Hk. unfold gQ. rewrite Nat.eqb_refl. reflexivity.
    + apply (col_ok_ext fQ fR); [intros k l Hk Hl; symmetry; apply Qo; lia|intros l Hl; symmetry; apply Ro; exact Nc|apply HC; lia].
  - intros r c Hr Hc Hjc. rewrite Qo by lia. apply HZ; lia.
  - intros r c Hr Hc H. destruct (Nat.eq_dec c j) as [->|Nc].
    + unfold gR, fR1. destruct (Nat.eqb_spec r j); [lia|]. destruct (Nat.ltb_spec r j); [lia|]. rewrite andb_false_r. apply HT; lia.
    + rewrite Ro by exact Nc. apply HT; lia.
Qed.

Lemma qr_run Q U : length Q = (M * M)%nat -> length U = (N * N)%nat ->
  exists Q' U' fQ fR, qr_decompose M N A Q U = Ok (Q', U') /\ repM M M Q' fQ /\ repM N N U' fR /\
  (forall c, (c < N)%nat -> col_ok fQ fR c) /\
  (forall r c, (r < M)%nat -> (c < M)%nat -> (N <= c)%nat -> fQ r c = f64_zero) /\
  (forall r c, (r < N)%nat -> (c < N)%nat -> (c < r)%nat -> fR r c = f64_zero).
Proof.
  intros LQ LU. unfold qr_decompose.
  destruct (mat_assign_value_spec M M Q _ (szero : f64) (repM_nth M M Q f64_zero LQ)) as (Q0 & -> & HQ0). cbn [bind].
  destruct (mat_assign_value_spec N N U _ (szero : f64) (repM_nth N N U f64_zero LU)) as (U0 & -> & HU0). cbn [bind].
  destruct (for_inv run_inv 0 N (qr_column M N A) (Q0, U0, vec_default M, vec_default M, vec_default M)) as ([[[[Q1 U1] v1] q1] a1] & -> & HI).
  - lia.
  - exists (fun _ _ => f64_zero), (fun _ _ => f64_zero). split; [exact HQ0|]. split; [exact HU0|].
    assert (LD : length (@vec_default f64 _ M) = M) by (apply repeat_length). repeat (split; [exact LD|]).
    split; [intros c Hc; lia|]. split; intros; reflexivity.
  - exact run_step.
  - destruct HI as (fQ & fR & H1 & H2 & _ & _ & _ & H3 & H4 & H5). cbn [bind]. exists Q1, U1, fQ, fR.
    split; [reflexivity|]. split; [exact H1|]. split; [exact H2|]. split; [exact H3|]. split; [intros r c Hr Hc Hn; apply H4; assumption|].
    intros r c Hr Hc Hl. apply H5; auto.
Qed.
End Run.

(** ** One operation whose result is finite *)
Lemma fin_minus a b : fin (b64_minus mode_NE a b) -> fin a /\ fin b /\
  exists d, Rabs d <= uro /\ val (b64_minus mode_NE a b) = (val a - val b) * (1 + d).
Proof.
  unfold fin, val, b64_minus. intros H.
  assert (F : is_finite 53 1024 a = true /\ is_finite 53 1024 b = true).
  { destruct a as [sa|sa|sa pa Ha|sa ma ea Ha], b as [sb|sb|sb pb Hb|sb mb eb Hb]; try (split; reflexivity); exfalso; cbn in H; try discriminate H;
      destruct sa, sb; cbn in H; discriminate H. }
  destruct F as [Fa Fb]. split; [exact Fa|]. split; [exact Fb|].
  match type of H with context [Bminus _ _ ?p ?q ?n _ _ _] => pose proof (Bminus_correct 53 1024 p q n mode_NE a b Fa Fb) as C end. cbv zeta in C.
  destruct (Rlt_bool _ _).
  - destruct C as (C & _). rewrite C.
    assert (EO : val (b64_opp b) = - val b) by (unfold val, b64_opp; apply B2R_Bopp).
    destruct (plus_error a (b64_opp b)) as (d & Hd & Ed). rewrite EO in Ed. exists d. split; [exact Hd|exact Ed].
  - exfalso. destruct C as [C _]. apply (f_equal (is_finite_FF)) in C. rewrite is_finite_B2FF, H in C. discriminate C.
Qed.
Lemma rnd_error (x : R) : exists d e, Rabs d <= uro /\ Rabs e <= eta /\ rnd x = x * (1 + d) + e.
Proof. destruct (mult_error x 1) as (d & e & H). exists d, e. rewrite Rmult_1_r in H. exact H. Qed.
Lemma fin_div a b : fin (b64_div mode_NE a b) -> fin b -> fin a /\ val b <> 0 /\
  exists d e, Rabs d <= uro /\ Rabs e <= eta /\ val (b64_div mode_NE a b) = val a / val b * (1 + d) + e.
Proof.
  intros H Fb.
  assert (Z : val b <> 0).
  { unfold fin, val, b64_div in *. destruct a as [sa|sa|sa pa Ha|sa ma ea Ha], b as [sb|sb|sb pb Hb|sb mb eb Hb]; cbn in H, Fb; try discriminate;
      intros E; cbn in E; apply eq_0_F2R in E; destruct sb; discriminate E. }
  assert (Fa : fin a).
  { unfold fin, val, b64_div in *. destruct a as [sa|sa|sa pa Ha|sa ma ea Ha], b as [sb|sb|sb pb Hb|sb mb eb Hb]; cbn in H, Fb; try discriminate; reflexivity. }
  split; [exact Fa|]. split; [exact Z|].
  unfold fin, val, b64_div in *.
  match type of H with context [Bdiv _ _ ?p ?q ?n _ _ _] => pose proof (Bdiv_correct 53 1024 p q n mode_NE a b Z) as C end. cbv zeta in C.
  destruct (Rlt_bool _ _).
  - destruct C as (C & _). rewrite C. apply rnd_error.
  - exfalso. apply (f_equal (is_finite_FF)) in C. rewrite is_finite_B2FF, H in C. discriminate C.
Qed.
Lemma fin_sqrt a : fin (b64_sqrt mode_NE a) -> fin a /\ val (b64_sqrt mode_NE a) = rnd (sqrt (val a)).
Proof.
  unfold fin, val, b64_sqrt. intros H.
  match type of H with context [Bsqrt _ _ ?p ?q ?n _ _] => pose proof (Bsqrt_correct 53 1024 p q n mode_NE a) as C end.
  destruct C as (C & _). split; [|exact C].
  destruct a as [sa|sa|sa pa Ha|sa ma ea Ha]; [reflexivity|destruct sa; discriminate H|discriminate H|reflexivity].
Qed.
Lemma fin_ssum (f : nat -> f64) : forall n, fin (ssum n f) -> forall i, (i < n)%nat -> fin (f i).
Proof.
  induction n as [|n IH]; intros H i Hi; [lia|]. cbn [ssum sadd F64Scalar] in H. destruct (fin_plus _ _ H) as (H1 & H2 & _).
  destruct (Nat.eq_dec i n) as [->|]; [exact H2|apply IH; [exact H1|lia]].
Qed.

(** ** Real-number bookkeeping of one subtraction and of the final division *)
Lemma step_bound (u h g S t e v E p d x : R) (k : R) :
  0 < u -> 0 < h -> 0 <= S -> 0 <= t -> 0 <= k -> 1 + u <= g ->
  Rabs E <= S -> Rabs x <= t -> Rabs (v - E) <= (g - 1) * S + k * h * e -> 1 <= e ->
  Rabs (p - x) <= u * t + h -> Rabs d <= u ->
  Rabs ((v - p) * (1 + d) - (E - x)) <= (g * (1 + u) - 1) * (S + t) + (k + 1) * h * (e * (1 + u)).
Proof.
  intros Hu Hh HS Ht Hk Hg HE Hx Hv He Hp Hd.
  replace ((v - p) * (1 + d) - (E - x)) with ((v - E) * (1 + d) + (- ((p - x) * (1 + d)) + (E - x) * d)) by ring.
  assert (D : Rabs (1 + d) <= 1 + u) by (eapply Rle_trans; [apply Rabs_triang|]; rewrite Rabs_R1; lra).
  eapply Rle_trans; [apply Rabs_triang|].
  assert (B1 : Rabs ((v - E) * (1 + d)) <= ((g - 1) * S + k * h * e) * (1 + u)) by (rewrite Rabs_mult; apply Rmult_le_compat; try apply Rabs_pos; assumption).
  assert (B2 : Rabs (- ((p - x) * (1 + d)) + (E - x) * d) <= (u * t + h) * (1 + u) + (S + t) * u).
  { eapply Rle_trans; [apply Rabs_triang|]. rewrite Rabs_Ropp, !Rabs_mult. apply Rplus_le_compat; apply Rmult_le_compat; try apply Rabs_pos; try assumption.
    unfold Rminus. eapply Rle_trans; [apply Rabs_triang|]. rewrite Rabs_Ropp. lra. }
  eapply Rle_trans; [apply Rplus_le_compat; [exact B1|exact B2]|].
  assert (X1 : (1 + u) * (1 + u) * t <= g * (1 + u) * t) by (apply Rmult_le_compat_r; [exact Ht|]; apply Rmult_le_compat_r; lra).
  assert (X2 : h * (1 + u) * 1 <= h * (1 + u) * e) by (apply Rmult_le_compat_l; [apply Rmult_le_pos; lra|exact He]).
  lra.
Qed.
Lemma last_bound (u h g S v E q r d z k e : R) :
  0 < u -> 0 < h -> 0 <= S -> 0 <= k -> 1 <= g -> 0 <= e -> r <> 0 ->
  Rabs E <= S -> Rabs (v - E) <= (g - 1) * S + k * h * e ->
  Rabs d <= u -> Rabs z <= h -> q = v / r * (1 + d) + z ->
  Rabs (E - q * r) <= (g * (1 + u) - 1) * S + k * h * (e * (1 + u)) + h * Rabs r.
Proof.
  intros Hu Hh HS Hk Hg He Hr HE Hv Hd Hz ->.
  replace (E - (v / r * (1 + d) + z) * r) with ((E - v) + (- (v * d) + - (z * r))) by (field; exact Hr).
  eapply Rle_trans; [apply Rabs_triang|].
  assert (B0 : Rabs (E - v) <= (g - 1) * S + k * h * e) by (rewrite Rabs_minus_sym; exact Hv).
  assert (B1 : Rabs v <= S + ((g - 1) * S + k * h * e)).
  { replace v with (E + (v - E)) by ring. eapply Rle_trans; [apply Rabs_triang|]. lra. }
  assert (B2 : Rabs (- (v * d) + - (z * r)) <= (S + ((g - 1) * S + k * h * e)) * u + h * Rabs r).
  { eapply Rle_trans; [apply Rabs_triang|]. rewrite !Rabs_Ropp, !Rabs_mult. apply Rplus_le_compat; apply Rmult_le_compat; try apply Rabs_pos; try assumption; lra. }
  lra.
Qed.

(** ** The columns *)
Section Err.
Context (M N : nat) (fA fQ fR : nat -> nat -> f64).
Context (HC : forall c, (c < N)%nat -> col_ok M fA fQ fR c).
Context (FQ : forall r c, (r < M)%nat -> (c < N)%nat -> fin (fQ r c)) (FR : forall c, (c < N)%nat -> fin (fR c c)).
Notation V j := (vv fA fQ fR j).

Lemma v_fin j k : (j < N)%nat -> (k < M)%nat -> fin (V j j k) /\ 0 < val (fR j j).
Proof.
  intros Hj Hk. destruct (HC j Hj) as (_ & H2 & H3). specialize (H3 k Hk). pose proof (FQ k j Hk Hj) as F. rewrite H3 in F.
  pose proof (FR j Hj) as F2. destruct (fin_div _ _ F F2) as (Fv & NZ & _). split; [exact Fv|].
  rewrite H2 in F2. destruct (fin_sqrt _ F2) as (_ & E). rewrite <- H2 in E.
  assert (0 <= val (fR j j)).
  { rewrite E. rewrite <- (round_0 radix2 (FLT_exp (-1074) 53) (Znearest (fun x => negb (Z.even x)))). apply round_le; [apply FLT_exp_valid; reflexivity|apply valid_rnd_N|apply sqrt_pos]. }
  lra.
Qed.
Lemma v_fin_all j k : (j < N)%nat -> (k < M)%nat -> forall i, (i <= j)%nat -> fin (V j i k).
Proof.
  intros Hj Hk i Hi. replace i with (j - (j - i))%nat by lia. set (m := (j - i)%nat). assert (Hm : (m <= j)%nat) by lia. clearbody m. clear i Hi.
  induction m as [|m IH]; [rewrite Nat.sub_0_r; apply v_fin; assumption|].
  specialize (IH ltac:(lia)). replace (j - m)%nat with (S (j - S m)) in IH by lia. cbn [vv] in IH. apply (fin_minus _ _ IH).
Qed.

Definition Ssum (j k i : nat) : R := Rabs (val (fA k j)) + rsum i (fun l => Rabs (val (fQ k l) * val (fR l j))).
Definition Eres (j k i : nat) : R := val (fA k j) - rsum i (fun l => val (fQ k l) * val (fR l j)).
Lemma E_S j k i : Rabs (Eres j k i) <= Ssum j k i.
Proof.
  unfold Eres, Ssum, Rminus. eapply Rle_trans; [apply Rabs_triang|]. rewrite Rabs_Ropp. apply Rplus_le_compat_l. apply rsum_abs.
Qed.
Lemma S_pos j k i : 0 <= Ssum j k i.
Proof. pose proof (E_S j k i). pose proof (Rabs_pos (Eres j k i)). lra. Qed.

Lemma v_err j k : (j < N)%nat -> (k < M)%nat -> forall i, (i <= j)%nat ->
  Rabs (val (V j i k) - Eres j k i) <= ((1 + uro) ^ S i - 1) * Ssum j k i + INR i * eta * (1 + uro) ^ i.
Proof.
  intros Hj Hk. pose proof uro_pos as UP. pose proof eta_pos as EP. induction i as [|i IH]; intros Hi.
  - cbn [vv]. unfold Eres, Ssum. cbn [rsum INR pow]. pose proof (Rabs_pos (val (fA k j))).
    replace (val (fA k j) - (val (fA k j) - 0)) with 0 by ring. rewrite Rabs_R0. nra.
  - specialize (IH ltac:(lia)). pose proof (v_fin_all j k Hj Hk (S i) Hi) as F. cbn [vv] in F |- *.
    destruct (fin_minus _ _ F) as (_ & Fp & d & Hd & Ed). rewrite Ed.
    destruct (fin_mult _ _ Fp) as (_ & _ & Ep). destruct (mult_error (val (fQ k i)) (val (fR i j))) as (d2 & e2 & Hd2 & He2 & EM).
    replace (Eres j k (S i)) with (Eres j k i - val (fQ k i) * val (fR i j)) by (unfold Eres; cbn [rsum]; ring).
    replace (Ssum j k (S i)) with (Ssum j k i + Rabs (val (fQ k i) * val (fR i j))) by (unfold Ssum; cbn [rsum]; ring).
    rewrite S_INR. replace ((1 + uro) ^ S (S i)) with ((1 + uro) ^ S i * (1 + uro)) by (cbn [pow]; ring).
    replace ((1 + uro) ^ S i) with ((1 + uro) ^ i * (1 + uro)) at 2 by (cbn [pow]; ring).
    apply step_bound; try assumption; try lra.
    + apply S_pos.
    + apply Rabs_pos.
    + apply pos_INR.
    + cbn [pow]. pose proof (pow_R1_Rle (1 + uro) i ltac:(lra)). nra.
    + apply E_S.
    + apply pow_R1_Rle. lra.
    + rewrite Ep, EM. replace (val (fQ k i) * val (fR i j) * (1 + d2) + e2 - val (fQ k i) * val (fR i j)) with (d2 * (val (fQ k i) * val (fR i j)) + e2) by ring.
      eapply Rle_trans; [apply Rabs_triang|]. rewrite Rabs_mult. apply Rplus_le_compat; [|exact He2]. apply Rmult_le_compat_r; [apply Rabs_pos|exact Hd2].
Qed.

Lemma col_err j k : (j < N)%nat -> (k < M)%nat ->
  Rabs (Eres j k (S j)) <= ((1 + uro) ^ S (S j) - 1) * Ssum j k j + INR j * eta * (1 + uro) ^ S j + eta * Rabs (val (fR j j)).
Proof.
  intros Hj Hk. pose proof (v_err j k Hj Hk j (Nat.le_refl j)) as B. destruct (HC j Hj) as (_ & _ & H3). specialize (H3 k Hk).
  pose proof (FQ k j Hk Hj) as F. rewrite H3 in F. destruct (fin_div _ _ F (FR j Hj)) as (_ & NZ & d & e & Hd & He & Ed). rewrite <- H3 in Ed.
  replace (Eres j k (S j)) with (Eres j k j - val (fQ k j) * val (fR j j)) by (unfold Eres; cbn [rsum]; ring).
  replace ((1 + uro) ^ S (S j)) with ((1 + uro) ^ S j * (1 + uro)) by (cbn [pow]; ring).
  replace ((1 + uro) ^ S j) with ((1 + uro) ^ j * (1 + uro)) at 2 by (cbn [pow]; ring).
  pose proof uro_pos as UP. pose proof eta_pos as EP.
  eapply (last_bound uro eta _ (Ssum j k j) (val (V j j k)) (Eres j k j)); try eassumption.
  - apply S_pos.
  - apply pos_INR.
  - apply pow_R1_Rle. lra.
  - apply pow_le. lra.
  - apply E_S.
Qed.
End Err.

(** ** The length of a column of Q *)
Lemma rsum_term n (f : nat -> R) i : (i < n)%nat -> (forall k, (k < n)%nat -> 0 <= f k) -> f i <= rsum n f.
Proof.
  induction n as [|n IH]; intros Hi H; [lia|]. cbn [rsum]. assert (0 <= rsum n f) by (clear IH Hi; induction n as [|n IH]; cbn [rsum]; [lra|]; pose proof (H n ltac:(lia)); assert (0 <= rsum n f) by (apply IH; intros; apply H; lia); lra).
  destruct (Nat.eq_dec i n) as [->|]; [lra|]. pose proof (H n ltac:(lia)). assert (f i <= rsum n f) by (apply IH; [lia|intros; apply H; lia]). lra.
Qed.
Lemma lenR_ge n (u : nat -> R) i : (i < n)%nat -> Rabs (u i) <= lenR n u.
Proof.
  intros Hi. rewrite <- sqrt_Rsqr_abs. unfold lenR, dotR. apply sqrt_le_1_alt. unfold Rsqr.
  apply (rsum_term n (fun i => u i * u i) i Hi). intros k _. nra.
Qed.
Lemma len_range n (a : nat -> f64) : let s := ssum n (fun i => smul (a i) (a i)) in let L := lenR n (fun i => val (a i)) in
  (Z.of_nat n <= 2 ^ 20)%Z -> fin (b64_sqrt mode_NE s) -> bp (-400) <= val (b64_sqrt mode_NE s) <= bp 400 ->
  bp (-450) <= L /\ forall i, (i < n)%nat -> fin (a i) /\ Rabs (val (a i)) <= bp 500.
Proof.
  intros s L Hn F B. destruct (fin_sqrt s F) as (Fs & E).
  pose proof (ssum_error a a n Fs) as D. fold s in D. unfold dot_bound in D.
  rewrite (rsum_ext n (fun i => Rabs (val (a i) * val (a i))) (fun i => val (a i) * val (a i))) in D by (intros i Hi; apply Rabs_pos_eq; nra).
  assert (LL : L * L = rsum n (fun i => val (a i) * val (a i))) by apply lenR_sq. rewrite <- LL in D.
  pose proof (lenR_nonneg n (fun i => val (a i))) as L0. fold L in L0. pose proof (INR_bound n Hn) as NB. pose proof uro_pos as UP. pose proof uro_val as UV. pose proof eta_pos as EP.
  assert (BQ : (1 + uro) ^ n <= 1 + 2 * INR n * uro) by (apply pow_bern; [lra|]; rewrite UV; lra).
  assert (B2 : (1 + uro) ^ n <= 1 + / 4) by (eapply Rle_trans; [exact BQ|]; rewrite UV; lra).
  assert (B1 : 1 <= (1 + uro) ^ n) by (apply pow_R1_Rle; lra). set (q := (1 + uro) ^ n) in *.
  assert (ET : INR n * eta * q <= bp (-1000)).
  { apply Rle_trans with (bp 20 * bp (-1075) * bp 1).
    - apply Rmult_le_compat; [apply Rmult_le_pos; lra|lra| |change (bp 1) with 2; lra]. apply Rmult_le_compat; [lra|lra|change (bp 20) with 1048576; lra|].
      rewrite <- eta_bpow. change (/ 2) with (bp (-1)). rewrite <- bpow_plus. apply bpow_le. lia.
    - rewrite <- !bpow_plus. apply bpow_le. lia. }
  assert (Q1 : (q - 1) * (L * L) <= / 4 * (L * L)) by (apply Rmult_le_compat_r; [apply Rmult_le_pos; exact L0|lra]).
  assert (Sr : sqrt (val s) <= bp 401 /\ bp (-401) <= sqrt (val s)).
  { split.
    - destruct (Rle_or_lt (sqrt (val s)) (bp 401)) as [H|H]; [exact H|exfalso].
      assert (bp 401 <= rnd (sqrt (val s))).
      { rewrite <- (round_generic radix2 (FLT_exp (-1074) 53) (Znearest (fun x => negb (Z.even x))) (bp 401)) by (apply format_bp; lia).
        apply round_le; [apply FLT_exp_valid; reflexivity|apply valid_rnd_N|lra]. }
      rewrite <- E in H0. assert (bp 400 < bp 401) by (apply bpow_lt; lia). lra.
    - destruct (Rle_or_lt (bp (-401)) (sqrt (val s))) as [H|H]; [exact H|exfalso].
      assert (rnd (sqrt (val s)) <= bp (-401)).
      { rewrite <- (round_generic radix2 (FLT_exp (-1074) 53) (Znearest (fun x => negb (Z.even x))) (bp (-401))) by (apply format_bp; lia).
        apply round_le; [apply FLT_exp_valid; reflexivity|apply valid_rnd_N|lra]. }
      rewrite <- E in H0. assert (bp (-401) < bp (-400)) by (apply bpow_lt; lia). lra. }
  assert (P401 : 0 < bp (-401)) by apply bpow_gt_0.
  assert (S0 : 0 < val s). { destruct (Rle_or_lt (val s) 0) as [H|H]; [|exact H]. rewrite sqrt_neg_0 in Sr by exact H. lra. }
  assert (SS : val s = sqrt (val s) * sqrt (val s)) by (symmetry; apply sqrt_sqrt; lra).
  assert (S1 : val s <= bp 802).
  { rewrite SS. change 802%Z with (401 + 401)%Z. rewrite bpow_plus. apply Rmult_le_compat; try apply sqrt_pos; apply Sr. }
  assert (S2 : bp (-802) <= val s).
  { rewrite SS. change (-802)%Z with (-401 + -401)%Z. rewrite bpow_plus. apply Rmult_le_compat; try apply bpow_ge_0; apply Sr. }
  apply Rabs_le_inv in D.
  assert (K1 : bp (-1000) <= bp (-804)) by (apply bpow_le; lia). assert (K2 : bp (-802) = 4 * bp (-804)) by (change (-802)%Z with (2 + -804)%Z; rewrite bpow_plus; reflexivity).
  assert (K3 : bp (-1000) <= bp 802) by (apply bpow_le; lia). assert (K4 : bp 804 = 4 * bp 802) by (change 804%Z with (2 + 802)%Z; rewrite bpow_plus; reflexivity).
  split.
  - apply Rle_trans with (bp (-402)); [apply bpow_le; lia|]. apply Rsqr_incr_0_var; [|exact L0]. unfold Rsqr. rewrite <- bpow_plus. change (-402 + -402)%Z with (-804)%Z. lra.
  - intros i Hi. split; [apply (fin_mult (a i) (a i)); exact (fin_ssum _ n Fs i Hi)|].
    apply Rle_trans with L; [apply (lenR_ge n (fun i => val (a i)) i Hi)|]. apply Rle_trans with (bp 402); [|apply bpow_le; lia].
    apply Rsqr_incr_0_var; [|apply bpow_ge_0]. unfold Rsqr. rewrite <- bpow_plus. change (402 + 402)%Z with (804)%Z. lra.
Qed.

(** A vector whose components are those of a / |a| up to eps and h. *)
Lemma near_unit n (a c : nat -> R) eps h : 0 < lenR n a -> 0 <= eps -> 0 <= h ->
  (forall i, (i < n)%nat -> Rabs (c i - a i / lenR n a) <= eps * Rabs (a i / lenR n a) + h) ->
  Rabs (lenR n c - 1) <= eps + INR n * h.
Proof.
  intros LP EP H0 C. set (L := lenR n a) in *. set (b := fun i => a i / L).
  assert (LB : lenR n b = 1).
  { unfold b. rewrite (lenR_ext n _ (fun i => / L * a i)) by (intros; field; lra). rewrite lenR_scal, Rabs_pos_eq by (apply Rlt_le, Rinv_0_lt_compat; lra).
    fold L. field. lra. }
  assert (D : lenR n (fun i => c i - b i) <= eps + INR n * h).
  { eapply Rle_trans; [apply (lenR_le n _ (fun i => eps * Rabs (b i) + h)); intros i Hi; apply (C i Hi)|].
    eapply Rle_trans; [apply lenR_triangle|]. apply Rplus_le_compat.
    - rewrite lenR_scal, Rabs_pos_eq by exact EP. rewrite <- (Rmult_1_r eps) at 2. apply Rmult_le_compat_l; [exact EP|]. rewrite <- LB. apply Req_le.
      unfold lenR, dotR. f_equal. apply rsum_ext. intros i Hi. rewrite <- Rabs_mult. apply Rabs_pos_eq. nra.
    - unfold lenR, dotR. rewrite rsum_const. rewrite <- Rmult_assoc. rewrite (Rmult_assoc (INR n)). pose proof (pos_INR n) as PN.
      rewrite sqrt_mult by nra. rewrite sqrt_square by lra. apply Rmult_le_compat_r; [lra|].
      destruct (Nat.eq_dec n 0) as [->|NZ]; [cbn; rewrite sqrt_0; lra|].
      assert (1 <= INR n) by (change 1 with (INR 1); apply le_INR; lia).
      apply Rsqr_incr_0_var; [|lra]. rewrite Rsqr_sqrt by lra. unfold Rsqr. nra. }
  assert (T1 : lenR n c <= lenR n b + lenR n (fun i => c i - b i)).
  { eapply Rle_trans; [|apply lenR_triangle]. apply Req_le, lenR_ext. intros i Hi. ring. }
  assert (T2 : lenR n b <= lenR n c + lenR n (fun i => c i - b i)).
  { apply Rle_trans with (lenR n c + lenR n (fun i => - (1) * (c i - b i))).
    - eapply Rle_trans; [|apply lenR_triangle]. apply Req_le, lenR_ext. intros i Hi. ring.
    - rewrite lenR_scal, Rabs_Ropp, Rabs_R1. lra. }
  apply Rabs_le. rewrite LB in *. lra.
Qed.
(** x / (L (1 + t)) (1 + d) + e against x / L. *)
Lemma quot_err (u x L t d e h N : R) : 0 < L -> 0 <= N <= 1048576 -> u = / 9007199254740992 -> Rabs t <= 2 * (N + 1) * u -> Rabs d <= u -> Rabs e <= h ->
  Rabs (x / (L * (1 + t)) * (1 + d) + e - x / L) <= 2 * (N + 2) * u * Rabs (x / L) + h.
Proof.
  intros LP NB UV Ht Hd He. assert (UP : 0 < u) by (rewrite UV; lra).
  assert (TS : Rabs t <= / 1000) by (rewrite UV in Ht; lra). apply Rabs_le_inv in TS.
  replace (x / (L * (1 + t)) * (1 + d) + e - x / L) with (x / L * ((1 + d) / (1 + t) - 1) + e) by (field; lra).
  eapply Rle_trans; [apply Rabs_triang|]. rewrite Rabs_mult. apply Rplus_le_compat; [|exact He].
  rewrite Rmult_comm. apply Rmult_le_compat_r; [apply Rabs_pos|].
  replace ((1 + d) / (1 + t) - 1) with ((d - t) / (1 + t)) by (field; lra).
  unfold Rdiv at 1. rewrite Rabs_mult, Rabs_inv, (Rabs_pos_eq (1 + t)) by lra.
  apply (Rmult_le_reg_r (1 + t)); [lra|]. rewrite Rmult_assoc, Rinv_l, Rmult_1_r by lra.
  apply Rle_trans with (u + Rabs t). { unfold Rminus. eapply Rle_trans; [apply Rabs_triang|]. rewrite Rabs_Ropp. lra. }
  assert (T1 : - Rabs t <= t) by (pose proof (Rle_abs (- t)) as X; rewrite Rabs_Ropp in X; lra).
  apply Rle_trans with (2 * (N + 2) * u * (1 - Rabs t)); [|apply Rmult_le_compat_l; [apply Rmult_le_pos|]; lra].
  pose proof (Rabs_pos t) as A0. set (at_ := Rabs t) in *.
  assert (A2 : 2 * (N + 2) * u * at_ <= u).
  { apply Rle_trans with (2 * (N + 2) * u * (2 * (N + 1) * u)).
    - apply Rmult_le_compat_l; [|exact Ht]. apply Rmult_le_pos; lra.
    - replace (2 * (N + 2) * u * (2 * (N + 1) * u)) with ((2 * (N + 2) * (2 * (N + 1)) * u) * u) by ring.
      rewrite <- (Rmult_1_l u) at 3. apply Rmult_le_compat_r; [lra|].
      apply Rle_trans with (4194304 * 4194304 * u); [|rewrite UV; lra]. apply Rmult_le_compat_r; [lra|]. apply Rmult_le_compat; lra. }
  lra.
Qed.
Lemma unit_col M N fA fQ fR j : (forall c, (c < N)%nat -> col_ok M fA fQ fR c) -> (N <= M)%nat -> (j < N)%nat -> (Z.of_nat M <= 2 ^ 20)%Z ->
  (forall r, (r < M)%nat -> fin (fQ r j)) -> fin (fR j j) -> bp (-400) <= val (fR j j) <= bp 400 ->
  Rabs (lenR M (fun k => val (fQ k j)) - 1) <= (INR M + 3) / 2 ^ 52.
Proof.
  intros HC HM Hj Hn FQ FR B. destruct (HC j Hj) as (_ & H2 & H3). set (a := vv fA fQ fR j j) in *. rewrite H2 in B.
  assert (FS : fin (b64_sqrt mode_NE (ssum M (fun k => smul (a k) (a k))))) by (rewrite <- H2; exact FR).
  destruct (len_range M a Hn FS B) as (HL & Ha). destruct (len_rel M a Ha Hn HL) as (r & t & E & F & Ht & Et).
  cbn [ssqrt F64Scalar] in E. injection E as E. assert (E1 : fR j j = r) by (rewrite H2; exact E). clear E. rename E1 into E.
  pose proof (INR_bound M Hn) as NB. pose proof uro_val as UV. pose proof eta_pos as EP.
  eapply Rle_trans; [apply (near_unit M (fun k => val (a k)) _ (2 * (INR M + 2) * uro) eta)|].
  - exact (L_pos M a HL).
  - apply Rmult_le_pos; [lra|rewrite UV; lra].
  - lra.
  - intros i Hi. specialize (H3 i Hi). pose proof (FQ i Hi) as F1. rewrite H3 in F1. destruct (fin_div _ _ F1 FR) as (_ & _ & d & e & Hd & He & Ed).
    rewrite <- H3 in Ed. rewrite Ed, E, Et. apply quot_err; try assumption. exact (L_pos M a HL).
  - assert (SM : INR M * eta <= / 2 ^ 52).
    { rewrite <- eta_bpow. change (/ 2) with (bp (-1)). rewrite <- bpow_plus.
      apply Rle_trans with (bp 20 * bp (-1 + -1074)); [apply Rmult_le_compat_r; [apply bpow_ge_0|]; cbn; lra|]. rewrite <- bpow_plus.
      apply Rle_trans with (bp (-52)); [apply bpow_le; lia|]. cbn. lra. }
    rewrite UV. lra.
Qed.

(** ** The theorems *)
Lemma rep_cells M N m h : repM M N m h -> forall i j, (i < M)%nat -> (j < N)%nat -> mcells M m i j = val (h i j).
Proof. intros (_ & H) i j Hi Hj. unfold mcells. rewrite (nth_error_nth m (j * M + i) f64_zero (H i j Hi Hj)). reflexivity. Qed.
Lemma rep_fin M N m h : repM M N m h -> (forall x, In x m -> fin x) -> forall i j, (i < M)%nat -> (j < N)%nat -> fin (h i j).
Proof. intros (_ & H) F i j Hi Hj. apply F. apply (nth_error_In m (j * M + i)). apply H; assumption. Qed.

(** [mcells M m i j] is the real value of row i, column j of a matrix with M
    rows.  The call always returns; R is upper triangular and the columns N .. M-1
    of Q are zero whatever the input; and if no cell of the result is infinite or
    NaN then Q R is A up to rounding, however ill-conditioned A is. *)
Theorem C149_qr_backward_error :
  forall (cfg : Cfg) (M N : nat) (A Q0 R0 : list f64),
  (N <= M)%nat -> length A = (M * N)%nat -> length Q0 = (M * M)%nat -> length R0 = (N * N)%nat ->
  exists Q U, qr_decompose M N A Q0 R0 = Ok (Q, U) /\ length Q = (M * M)%nat /\ length U = (N * N)%nat /\
  (forall i j, (i < M)%nat -> (N <= j < M)%nat -> mcells M Q i j = 0) /\
  (forall i j, (i < N)%nat -> (j < i)%nat -> mcells N U i j = 0) /\
  ((forall x, In x Q -> fin x) -> (forall x, In x U -> fin x) ->
   (forall x, In x A -> fin x) /\ (forall j, (j < N)%nat -> 0 < mcells N U j j) /\
   forall i j, (i < M)%nat -> (j < N)%nat ->
     Rabs (mcells M A i j - rsum N (fun l => mcells M Q i l * mcells N U l j)) <=
       ((1 + / 2 ^ 53) ^ (N + 1) - 1) * (Rabs (mcells M A i j) + rsum N (fun l => Rabs (mcells M Q i l * mcells N U l j)))
       + (INR N * (1 + / 2 ^ 53) ^ N + mcells N U j j) / 2 ^ 1075).
Proof.
  intros cfg M N A Q0 R0 HMN LA LQ LR. pose proof (repM_nth M N A f64_zero LA) as HA.
  destruct (qr_run M N A _ HA HMN Q0 R0 LQ LR) as (Q & U & fQ & fR & E & HQ & HU & HC & HZ & HT).
  set (fA := fun i j => nth (j * M + i) A f64_zero) in *.
  exists Q, U. split; [exact E|]. split; [apply HQ|]. split; [apply HU|]. split; [|split].
  - intros i j Hi Hj. rewrite (rep_cells M M Q fQ HQ) by lia. rewrite HZ by lia. reflexivity.
  - intros i j Hi Hj. rewrite (rep_cells N N U fR HU) by lia. rewrite HT by lia. reflexivity.
  - intros FQ FU.
    assert (FQ' : forall r c, (r < M)%nat -> (c < N)%nat -> fin (fQ r c)) by (intros; apply (rep_fin M M Q fQ HQ FQ); lia).
    assert (FR' : forall c, (c < N)%nat -> fin (fR c c)) by (intros; apply (rep_fin N N U fR HU FU); lia).
    split; [|split].
    + intros x Hx. apply (In_nth _ _ f64_zero) in Hx. destruct Hx as (p & Hp & <-).
      assert (M <> 0)%nat by (intros ->; cbn in LA; lia).
      assert (Hd : (p / M < N)%nat) by (apply Nat.div_lt_upper_bound; lia). assert (Hm : (p mod M < M)%nat) by (apply Nat.mod_upper_bound; lia).
      pose proof (v_fin_all M N fA fQ fR HC FQ' FR' (p / M) (p mod M) Hd Hm 0 ltac:(lia)) as F. cbn [vv] in F. unfold fA in F.
      replace (p / M * M + p mod M)%nat with p in F by (pose proof (Nat.div_mod p M ltac:(lia)); lia). exact F.
    + intros j Hj. rewrite (rep_cells N N U fR HU) by lia. apply (v_fin M N fA fQ fR HC FQ' FR' j 0 Hj ltac:(lia)).
    + intros i j Hi Hj. pose proof (col_err M N fA fQ fR HC FQ' FR' j i Hj Hi) as B.
      rewrite (rep_cells M N A fA HA) by assumption. rewrite (rep_cells N N U fR HU) by assumption.
      assert (PJ : 0 < val (fR j j)) by (apply (v_fin M N fA fQ fR HC FQ' FR' j i Hj Hi)).
      assert (X : forall l, (l < N)%nat -> mcells M Q i l * mcells N U l j = if (l <=? j)%nat then val (fQ i l) * val (fR l j) else 0).
      { intros l Hl. rewrite (rep_cells M M Q fQ HQ), (rep_cells N N U fR HU) by lia. destruct (Nat.leb_spec l j); [reflexivity|].
        rewrite (HT l j) by lia. change (val f64_zero) with 0. ring. }
      assert (S1 : rsum N (fun l => mcells M Q i l * mcells N U l j) = rsum (S j) (fun l => val (fQ i l) * val (fR l j))).
      { replace N with (S j + (N - S j))%nat by lia. rewrite rsum_split.
        rewrite (rsum_ext (S j) _ (fun l => val (fQ i l) * val (fR l j))) by (intros l Hl; replace (S j + (N - S j))%nat with N by lia; rewrite X by lia; destruct (Nat.leb_spec l j); [reflexivity|lia]).
        rewrite (rsum_zero' (N - S j)); [ring|]. intros l Hl. replace (S j + (N - S j))%nat with N by lia. rewrite X by lia. destruct (Nat.leb_spec (S j + l) j); [lia|reflexivity]. }
      assert (S2 : rsum j (fun l => Rabs (val (fQ i l) * val (fR l j))) <= rsum N (fun l => Rabs (mcells M Q i l * mcells N U l j))).
      { rewrite (rsum_ext j _ (fun l => Rabs (mcells M Q i l * mcells N U l j))) by (intros l Hl; rewrite X by lia; destruct (Nat.leb_spec l j); [reflexivity|lia]).
        replace (rsum N (fun l => Rabs (mcells M Q i l * mcells N U l j))) with (rsum (j + (N - j)) (fun l => Rabs (mcells M Q i l * mcells N U l j))) by (f_equal; lia).
        rewrite rsum_split. rewrite <- (Rplus_0_r (rsum j _)) at 1. apply Rplus_le_compat_l. apply rsum_nonneg. intros; apply Rabs_pos. }
      rewrite S1. fold uro. unfold Rdiv. fold eta. unfold Eres in B.
      eapply Rle_trans; [exact B|]. unfold Ssum. pose proof uro_pos as UP. pose proof eta_pos as EP.
      rewrite (Rabs_pos_eq (val (fR j j))) by lra.
      set (SA := Rabs (val (fA i j))) in *. set (T := rsum N (fun l => Rabs (mcells M Q i l * mcells N U l j))) in *. set (T0 := rsum j (fun l => Rabs (val (fQ i l) * val (fR l j)))) in *.
      assert (T00 : 0 <= T0) by (apply rsum_nonneg; intros; apply Rabs_pos). assert (SA0 : 0 <= SA) by apply Rabs_pos.
      assert (P1 : (1 + uro) ^ S (S j) <= (1 + uro) ^ (N + 1)) by (apply Rle_pow; [lra|lia]).
      assert (P2 : (1 + uro) ^ S j <= (1 + uro) ^ N) by (apply Rle_pow; [lra|lia]).
      assert (P3 : INR j <= INR N) by (apply le_INR; lia).
      assert (P4 : 1 <= (1 + uro) ^ S (S j)) by (apply pow_R1_Rle; lra). assert (P5 : 0 <= (1 + uro) ^ S j) by (apply pow_le; lra).
      assert (Y1 : ((1 + uro) ^ S (S j) - 1) * (SA + T0) <= ((1 + uro) ^ (N + 1) - 1) * (SA + T)) by (apply Rmult_le_compat; lra).
      assert (Y2 : INR j * (1 + uro) ^ S j <= INR N * (1 + uro) ^ N) by (apply Rmult_le_compat; try assumption; apply pos_INR).
      assert (Y3 : INR j * (1 + uro) ^ S j * eta <= INR N * (1 + uro) ^ N * eta) by (apply Rmult_le_compat_r; lra).
      lra.
Qed.
Print Assumptions C149_qr_backward_error.

(** Each column of Q has length 1 up to (M + 3) 2^-52 unless the corresponding
    diagonal cell of R is extremely large or small. *)
Theorem C149_qr_unit_columns :
  forall (cfg : Cfg) (M N : nat) (A Q0 R0 Q U : list f64),
  (N <= M)%nat -> (Z.of_nat M <= 2 ^ 20)%Z -> length A = (M * N)%nat -> length Q0 = (M * M)%nat -> length R0 = (N * N)%nat ->
  qr_decompose M N A Q0 R0 = Ok (Q, U) ->
  forall j, (j < N)%nat -> (forall x, In x Q -> fin x) -> (forall x, In x U -> fin x) ->
  / 2 ^ 400 <= mcells N U j j <= 2 ^ 400 ->
  Rabs (lenR M (fun i => mcells M Q i j) - 1) <= (INR M + 3) / 2 ^ 52.
Proof.
  intros cfg M N A Q0 R0 Q U HMN Hn LA LQ LR EQ j Hj FQ FU B. pose proof (repM_nth M N A f64_zero LA) as HA.
  destruct (qr_run M N A _ HA HMN Q0 R0 LQ LR) as (Q1 & U1 & fQ & fR & E & HQ & HU & HC & HZ & HT).
  rewrite EQ in E. injection E as -> ->.
  assert (E4 : / 2 ^ 400 = bp (-400)) by (change (-400)%Z with (Z.opp 400); rewrite bpow_opp, (bpow_pow 400); reflexivity).
  assert (E5 : 2 ^ 400 = bp 400) by exact (eq_sym (bpow_pow 400)).
  rewrite E4, E5 in B. rewrite (rep_cells N N U1 fR HU) in B by assumption.
  rewrite (lenR_ext M _ (fun k => val (fQ k j))) by (intros i Hi; apply (rep_cells M M Q1 fQ HQ); lia).
  eapply (unit_col M N _ fQ fR j HC HMN Hj Hn); [|apply (rep_fin N N U1 fR HU FU); lia|exact B].
  intros r Hr. apply (rep_fin M M Q1 fQ HQ FQ); lia.
Qed.
Print Assumptions C149_qr_unit_columns.

(** The columns of Q need not be orthogonal: for a matrix with linearly
    independent columns the cosine of the angle between two of them is 1/2. *)
Definition qr_eps : f64 := b64_of_bits 0x3E10000000000000. (* 2^-30 *)
Definition qr_lauchli : list f64 :=
  [f64_one; qr_eps; f64_zero; f64_zero; f64_one; f64_zero; qr_eps; f64_zero; f64_one; f64_zero; f64_zero; qr_eps].
Definition qr_c : f64 := b64_of_bits 0x3FE6A09E667F3BCC. (* 0.7071... *)
Definition qr_Q : list f64 := [f64_one; qr_eps; f64_zero; f64_zero; f64_zero; b64_opp qr_c; qr_c; f64_zero; f64_zero; b64_opp qr_c; f64_zero; qr_c; f64_zero; f64_zero; f64_zero; f64_zero].
Definition qr_U : list f64 := [f64_one; f64_zero; f64_zero; f64_one; b64_of_bits 0x3E16A09E667F3BCD; f64_zero; f64_one; f64_zero; b64_of_bits 0x3E16A09E667F3BCD].
Lemma val_finite (x : f64) m e : B2FF 53 1024 x = F754_finite false m e -> val x = IZR (Zpos m) * bp e.
Proof. destruct x as [s|s|s pl Hpl|s m' e' Hb]; intros H; try discriminate H. injection H as -> -> ->. reflexivity. Qed.

Theorem C150_qr_orthogonal_refuted :
  exists A Q0 R0 : list f64, length A = (4 * 3)%nat /\ length Q0 = (4 * 4)%nat /\ length R0 = (3 * 3)%nat /\
  (forall x, In x A -> fin x) /\ lin_indep 4 3 (mcells 4 A) /\
  forall cfg : Cfg, exists Q U, qr_decompose 4 3 A Q0 R0 = Ok (Q, U) /\
  (forall x, In x Q -> fin x) /\ (forall x, In x U -> fin x) /\
  (49 / 100 <= dotR 4 (fun i => mcells 4 Q i 1) (fun i => mcells 4 Q i 2)).
Proof.
  exists qr_lauchli, (repeat f64_zero 16), (repeat f64_zero 9). split; [reflexivity|]. split; [reflexivity|]. split; [reflexivity|].
  assert (V1 : val f64_one = 1) by apply val_one. assert (V0 : val f64_zero = 0) by reflexivity.
  assert (VE : val qr_eps = bp (-30)).
  { rewrite (val_finite qr_eps 4503599627370496 (-82)) by (vm_compute; reflexivity). change (IZR 4503599627370496) with (bp 52). rewrite <- bpow_plus. reflexivity. }
  assert (EP : 0 < bp (-30)) by apply bpow_gt_0.
  split; [intros x Hx; cbn in Hx; decompose [or] Hx; subst; try reflexivity; contradiction|]. split.
  - intros x H c Hc.
    pose proof (H 1%nat ltac:(lia)) as E1. pose proof (H 2%nat ltac:(lia)) as E2. pose proof (H 3%nat ltac:(lia)) as E3.
    unfold mcells, qr_lauchli in E1, E2, E3. cbn [rsum nth Nat.mul Nat.add] in E1, E2, E3. rewrite ?VE, ?V1, ?V0 in E1, E2, E3.
    set (h := bp (-30)) in *. clearbody h.
    assert (C1 : h * x 0%nat = 0) by lra. assert (C2 : h * x 1%nat = 0) by lra. assert (C3 : h * x 2%nat = 0) by lra.
    destruct c as [|[|[|c]]]; [| | |lia]; [apply Rmult_integral in C1|apply Rmult_integral in C2|apply Rmult_integral in C3]; lra.
  - intros cfg.
    assert (R : match qr_decompose 4 3 qr_lauchli (repeat f64_zero 16) (repeat f64_zero 9) with Ok (q, r) => Some (map bits_of_b64 q, map bits_of_b64 r) | _ => None end
      = Some (map bits_of_b64 qr_Q,
              map bits_of_b64 qr_U)).
    { destruct cfg as [[|]]; vm_compute; reflexivity. }
    destruct (qr_decompose 4 3 qr_lauchli (repeat f64_zero 16) (repeat f64_zero 9)) as [[Q U]| | |]; try discriminate R.
    assert (RQ : map bits_of_b64 Q = map bits_of_b64 qr_Q) by congruence. assert (RU : map bits_of_b64 U = map bits_of_b64 qr_U) by congruence.
    exists Q, U. split; [reflexivity|].
    assert (INJ : forall l l' : list f64, map bits_of_b64 l = map bits_of_b64 l' -> l = l').
    { induction l as [|x l IH]; intros [|y l'] Heq; try discriminate Heq; [reflexivity|]. cbn in Heq. injection Heq as H1 H2.
      f_equal; [|apply IH; exact H2].
      apply bits_inj; exact H1.
      }
    apply INJ in RQ, RU. subst Q U.
    split; [intros x Hx; cbn in Hx; decompose [or] Hx; subst; try reflexivity; contradiction|].
    split; [intros x Hx; cbn in Hx; decompose [or] Hx; subst; try reflexivity; contradiction|].
    assert (VC : val qr_c = 6369051672525772 * bp (-53)) by (apply val_finite; vm_compute; reflexivity).
    assert (VN : val (b64_opp qr_c) = - val qr_c) by (unfold val, b64_opp; apply B2R_Bopp).
    unfold dotR, mcells, qr_Q. cbn [rsum nth Nat.mul Nat.add]. rewrite VN, VC, V0. cbn -[IZR]. lra.
Qed.
Print Assumptions C150_qr_orthogonal_refuted.

Example C149_hypotheses_met :
  exists Q U, qr_decompose (cfg := Build_Cfg true) 4 3 qr_lauchli (repeat f64_zero 16) (repeat f64_zero 9) = Ok (Q, U) /\
  (forall x, In x Q -> fin x) /\ (forall x, In x U -> fin x) /\ / 2 ^ 400 <= mcells 3 U 0 0 <= 2 ^ 400.
Proof.
  assert (R : match qr_decompose (cfg := Build_Cfg true) 4 3 qr_lauchli (repeat f64_zero 16) (repeat f64_zero 9) with
    Ok (q, r) => forallb (is_finite 53 1024) (q ++ r) && (bits_of_b64 (nth 0 r f64_zero) =? bits_of_b64 f64_one)%Z | _ => false end = true) by (vm_compute; reflexivity).
  destruct (qr_decompose (cfg := Build_Cfg true) 4 3 qr_lauchli (repeat f64_zero 16) (repeat f64_zero 9)) as [[Q U]| | |]; try discriminate R.
  apply andb_true_iff in R as [R1 R2]. rewrite forallb_forall in R1. exists Q, U. split; [reflexivity|].
  split; [intros x Hx; apply R1, in_or_app; left; exact Hx|]. split; [intros x Hx; apply R1, in_or_app; right; exact Hx|].
  apply Z.eqb_eq in R2. unfold mcells. cbn [Nat.mul Nat.add].
  assert (E : nth 0 U f64_zero = f64_one).
  { rewrite <- (binary_float_of_bits_of_binary_float 52 11 eq_refl eq_refl eq_refl (nth 0 U f64_zero)), <- (binary_float_of_bits_of_binary_float 52 11 eq_refl eq_refl eq_refl f64_one).
    unfold bits_of_b64 in R2. rewrite R2. reflexivity. }
  rewrite E, val_one. assert (1 <= 2 ^ 400) by (apply pow_R1_Rle; lra). split; [|lra]. apply Rle_trans with (/ 1); [apply Rinv_le; lra|lra].
Qed.
