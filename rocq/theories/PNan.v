(** Properties C181-C182: searching, clamping and bounding doubles when some of
    them are NaN or infinite. *)
From Coq Require Import ZArith Reals Lra Bool.
From Flocq Require Import Core.Core IEEE754.BinarySingleNaN IEEE754.Binary IEEE754.Bits.
From Verif Require Import InstF LF64 LVector LMatrix MMatrix LVector2 LVecProps2 Spec LSum PFloat LFloat PFloat2 LErr Spec10 LExt MAabb PAabb PFloat3 PFloat4 PAabbF.
Import ListNotations.
Local Existing Instance F64Scalar.
Local Existing Instance F64Lowest.

(** [a] is the least of the numbers of a family, and [b] the greatest; entries
    that are no numbers do not count. *)
Definition least_of {I : Type} (dom : I -> Prop) (x : I -> f64) (a : f64) : Prop :=
  value a <> NotANumber /\ forall i, dom i -> value (x i) = NotANumber \/ at_most (value a) (value (x i)).
Definition greatest_of {I : Type} (dom : I -> Prop) (x : I -> f64) (b : f64) : Prop :=
  value b <> NotANumber /\ forall i, dom i -> value (x i) = NotANumber \/ at_most (value (x i)) (value b).

Lemma num_dec (a : number) : {a = NotANumber} + {a <> NotANumber}.
Proof. destruct a; [left; reflexivity|right; discriminate|right; discriminate]. Qed.
Lemma Bltb_nan x y : value x = NotANumber \/ value y = NotANumber -> Bltb x y = false.
Proof.
  intros [H|H].
  - destruct x; try discriminate H. destruct y; reflexivity.
  - destruct y; try discriminate H. destruct x; reflexivity.
Qed.
Lemma at_most_total a b : a <> NotANumber -> b <> NotANumber -> at_most a b \/ at_most b a.
Proof. destruct a as [|[]|x], b as [|[]|y]; cbn; intros; try tauto. destruct (Rle_lt_dec x y); [left|right]; lra. Qed.
Lemma lt_true x y : Bltb x y = true -> value x <> NotANumber /\ value y <> NotANumber /\ at_most (value x) (value y) /\ ~ at_most (value y) (value x).
Proof.
  intros H. destruct (num_dec (value x)) as [X|X]; [rewrite Bltb_nan in H by auto; discriminate|].
  destruct (num_dec (value y)) as [Y|Y]; [rewrite Bltb_nan in H by auto; discriminate|].
  assert (Z : ~ at_most (value y) (value x)) by (intros A; apply (Bltb_false_iff x y X Y) in A; congruence).
  split; [exact X|]. split; [exact Y|]. split; [|exact Z]. destruct (at_most_total _ _ X Y); [assumption|contradiction].
Qed.
Lemma lt_false x y : value y <> NotANumber -> Bltb x y = false -> value x = NotANumber \/ at_most (value y) (value x).
Proof. intros Y H. destruct (num_dec (value x)) as [X|X]; [left; exact X|right; apply Bltb_false_iff; assumption]. Qed.
Lemma lt_false' x y : value x <> NotANumber -> Bltb x y = false -> value y = NotANumber \/ at_most (value y) (value x).
Proof. intros X H. destruct (num_dec (value y)) as [Y|Y]; [left; exact Y|right; apply Bltb_false_iff; assumption]. Qed.
Lemma at_most_num a b : at_most a b -> a <> NotANumber /\ b <> NotANumber.
Proof. destruct a as [|[]|], b as [|[]|]; cbn; intros H; try contradiction; split; discriminate. Qed.

(** C181: an element NaN at index 0 wins every search; any other NaN is ignored,
    and the answer is the first of the extremal numbers. *)
Theorem C181_find_min_max :
  forall (M : nat) (v : list f64) (f : nat -> f64), (0 < M)%nat -> repV M v f ->
  (value (f 0%nat) = NotANumber ->
     vec_find_min_index v = Ok 0%nat /\ vec_find_max_index v = Ok 0%nat /\ vec_find_min v = Ok (f 0%nat) /\ vec_find_max v = Ok (f 0%nat)) /\
  (value (f 0%nat) <> NotANumber ->
     (exists k, vec_find_min_index v = Ok k /\ vec_find_min v = Ok (f k) /\ (k < M)%nat /\
        least_of (fun i => (i < M)%nat) f (f k) /\
        (forall j, (j < k)%nat -> ~ at_most (value (f j)) (value (f k)))) /\
     (exists k, vec_find_max_index v = Ok k /\ vec_find_max v = Ok (f k) /\ (k < M)%nat /\
        greatest_of (fun i => (i < M)%nat) f (f k) /\
        (forall j, (j < k)%nat -> ~ at_most (value (f k)) (value (f j))))).
Proof.
  intros M v f HM Hv. split.
  - intros N.
    assert (A : vec_find_min_index v = Ok 0%nat).
    { destruct (for_inv (fun _ b => b = 0%nat) 1 (length v) (fun i best => x <- rd v i ;; y <- rd v best ;; Ok (if sltb x y then i else best)) 0%nat) as (b & E & ->);
        [rewrite (repV_len _ _ _ Hv); exact HM|reflexivity| |exact E].
      intros k x Hk ->. rewrite (repV_len _ _ _ Hv) in Hk. rewrite !(repV_rd _ _ _ _ Hv) by lia. cbn [bind]. apply returns_ok.
      cbn [sltb F64Scalar]. rewrite Bltb_nan by auto. reflexivity. }
    assert (B : vec_find_max_index v = Ok 0%nat).
    { destruct (for_inv (fun _ b => b = 0%nat) 1 (length v) (fun i best => x <- rd v i ;; y <- rd v best ;; Ok (if sltb y x then i else best)) 0%nat) as (b & E & ->);
        [rewrite (repV_len _ _ _ Hv); exact HM|reflexivity| |exact E].
      intros k x Hk ->. rewrite (repV_len _ _ _ Hv) in Hk. rewrite !(repV_rd _ _ _ _ Hv) by lia. cbn [bind]. apply returns_ok.
      cbn [sltb F64Scalar]. rewrite Bltb_nan by auto. reflexivity. }
    unfold vec_find_min, vec_find_max. rewrite A, B. cbn [bind]. rewrite (repV_rd _ _ _ _ Hv HM). auto.
  - intros N. split.
    + destruct (for_inv (fun m k => (k < m)%nat /\ least_of (fun i => (i < m)%nat) f (f k) /\ (forall j, (j < k)%nat -> ~ at_most (value (f j)) (value (f k))))
         1 (length v) (fun i best => x <- rd v i ;; y <- rd v best ;; Ok (if sltb x y then i else best)) 0%nat) as (k & E & Hk & HL & HF).
      * rewrite (repV_len _ _ _ Hv); exact HM.
      * split; [lia|]. split; [|intros; lia]. split; [exact N|]. intros i Hi. assert (i = 0)%nat by lia. subst. right. apply at_most_refl, N.
      * intros i k Hi (Hk & (NK & HL) & HF). rewrite (repV_len _ _ _ Hv) in Hi. rewrite !(repV_rd _ _ _ _ Hv) by lia. cbn [bind]. apply returns_ok.
        cbn [sltb F64Scalar]. destruct (Bltb (f i) (f k)) eqn:L.
        -- apply lt_true in L. destruct L as (Ni & _ & L1 & L2). split; [lia|]. split.
           ++ split; [exact Ni|]. intros j Hj. destruct (Nat.eq_dec j i) as [->|]; [right; apply at_most_refl, Ni|].
              destruct (HL j ltac:(lia)) as [H|H]; [left; exact H|right; eapply at_most_trans; eassumption].
           ++ intros j Hj A. destruct (HL j Hj) as [H|H]; [apply at_most_num in A; tauto|]. apply L2. eapply at_most_trans; eassumption.
        -- split; [lia|]. split; [|exact HF]. split; [exact NK|]. intros j Hj. destruct (Nat.eq_dec j i) as [->|]; [apply lt_false; assumption|apply HL; lia].
      * rewrite (repV_len _ _ _ Hv) in *. exists k. split; [unfold vec_find_min_index, min_element_by; rewrite (repV_len _ _ _ Hv); exact E|].
        split; [unfold vec_find_min, vec_find_min_index, min_element_by; rewrite (repV_len _ _ _ Hv), E; cbn [bind]; apply (repV_rd _ _ _ _ Hv Hk)|].
        split; [exact Hk|]. split; assumption.
    + destruct (for_inv (fun m k => (k < m)%nat /\ greatest_of (fun i => (i < m)%nat) f (f k) /\ (forall j, (j < k)%nat -> ~ at_most (value (f k)) (value (f j))))
         1 (length v) (fun i best => x <- rd v i ;; y <- rd v best ;; Ok (if sltb y x then i else best)) 0%nat) as (k & E & Hk & HL & HF).
      * rewrite (repV_len _ _ _ Hv); exact HM.
      * split; [lia|]. split; [|intros; lia]. split; [exact N|]. intros i Hi. assert (i = 0)%nat by lia. subst. right. apply at_most_refl, N.
      * intros i k Hi (Hk & (NK & HL) & HF). rewrite (repV_len _ _ _ Hv) in Hi. rewrite !(repV_rd _ _ _ _ Hv) by lia. cbn [bind]. apply returns_ok.
        cbn [sltb F64Scalar]. destruct (Bltb (f k) (f i)) eqn:L.
        -- apply lt_true in L. destruct L as (_ & Ni & L1 & L2). split; [lia|]. split.
           ++ split; [exact Ni|]. intros j Hj. destruct (Nat.eq_dec j i) as [->|]; [right; apply at_most_refl, Ni|].
              destruct (HL j ltac:(lia)) as [H|H]; [left; exact H|right; eapply at_most_trans; eassumption].
           ++ intros j Hj A. destruct (HL j Hj) as [H|H]; [apply at_most_num in A; tauto|]. apply L2. eapply at_most_trans; eassumption.
        -- split; [lia|]. split; [|exact HF]. split; [exact NK|]. intros j Hj. destruct (Nat.eq_dec j i) as [->|]; [apply lt_false'; assumption|apply HL; lia].
      * rewrite (repV_len _ _ _ Hv) in *. exists k. split; [unfold vec_find_max_index, max_element_by; rewrite (repV_len _ _ _ Hv); exact E|].
        split; [unfold vec_find_max, vec_find_max_index, max_element_by; rewrite (repV_len _ _ _ Hv), E; cbn [bind]; apply (repV_rd _ _ _ _ Hv Hk)|].
        split; [exact Hk|]. split; assumption.
Qed.
Print Assumptions C181_find_min_max.

(** The running minimum (maximum) of the matrix searches. *)
Lemma run_best n (v : list f64) (f : nat -> f64) (op : f64 -> f64) (test : f64 -> f64 -> bool) (better : number -> number -> Prop) (P : f64 -> Prop) b0 :
  repV n v f -> P b0 -> value b0 <> NotANumber ->
  (forall a, a <> NotANumber -> better a a) -> (forall a b c, better a b -> better b c -> better a c) ->
  (forall x b, P b -> value b <> NotANumber ->
     (test x b = true -> P (op x) /\ value (op x) <> NotANumber /\ better (value (op x)) (value b)) /\
     (test x b = false -> value (op x) = NotANumber \/ better (value b) (value (op x)))) ->
  returns (for_ 0 n (fun i b => a <- rd v i ;; Ok (if test a b then op a else b)) b0) (fun b =>
    value b <> NotANumber /\ (forall i, (i < n)%nat -> value (op (f i)) = NotANumber \/ better (value b) (value (op (f i)))) /\
    (b = b0 \/ exists i, (i < n)%nat /\ b = op (f i))).
Proof.
  intros Hv P0 N0 RF TR HT.
  eapply returns_impl.
  - apply (for_inv (fun m b => P b /\ value b <> NotANumber /\ (forall i, (i < m)%nat -> value (op (f i)) = NotANumber \/ better (value b) (value (op (f i)))) /\
      (b = b0 \/ exists i, (i < m)%nat /\ b = op (f i)))); [lia| |].
    + split; [exact P0|]. split; [exact N0|]. split; [intros; lia|left; reflexivity].
    + intros m b Hm (Pb & Nb & HA & HB). rewrite (repV_rd _ _ _ _ Hv) by lia. cbn [bind]. apply returns_ok.
      destruct (HT (f m) b Pb Nb) as [T1 T2]. destruct (test (f m) b).
      * destruct (T1 eq_refl) as (P1 & N1 & B1). split; [exact P1|]. split; [exact N1|]. split.
        -- intros i Hi. destruct (Nat.eq_dec i m) as [->|]; [right; apply RF, N1|]. destruct (HA i ltac:(lia)) as [H|H]; [left; exact H|right; eapply TR; eassumption].
        -- right. exists m. split; [lia|reflexivity].
      * split; [exact Pb|]. split; [exact Nb|]. split.
        -- intros i Hi. destruct (Nat.eq_dec i m) as [->|]; [apply T2; reflexivity|apply HA; lia].
        -- destruct HB as [HB|(i & Hi & HB)]; [left; exact HB|right; exists i; split; [lia|exact HB]].
  - intros b (_ & H). exact H.
Qed.
Lemma at_most_antisym a b : at_most a b -> at_most b a -> a = b.
Proof. destruct a as [|[]|], b as [|[]|]; cbn; intros H1 H2; try contradiction; try reflexivity. f_equal. apply Rle_antisym; assumption. Qed.
Lemma value_max : value f64_max = Number (val f64_max).
Proof. reflexivity. Qed.
Lemma value_zero : value f64_zero = Number 0.
Proof. reflexivity. Qed.
Lemma val_max : val f64_max = (bpow radix2 1024 - bpow radix2 (1024 - 53))%R.
Proof.
  unfold val. rewrite <- FF2R_B2FF. replace (B2FF 53 1024 f64_max) with (F754_finite false 9007199254740991 971) by (vm_compute; reflexivity).
  cbn [FF2R cond_Zopp]. unfold F2R. cbn [Fnum Fexp]. replace 1024%Z with (53 + 971)%Z at 1 by reflexivity. rewrite bpow_plus.
  change (1024 - 53)%Z with 971%Z. change (bpow radix2 53) with (IZR 9007199254740992). change 9007199254740992%Z with (9007199254740991 + 1)%Z. rewrite plus_IZR. ring.
Qed.
Lemma le_max x : fin x -> (Rabs (val x) <= val f64_max)%R.
Proof. intros F. rewrite val_max. unfold val. apply abs_B2R_le_emax_minus_prec. reflexivity. Qed.
Lemma at_most_max x : value x = NotANumber \/ value x = Infinity false \/ at_most (value x) (value f64_max).
Proof.
  destruct (value x) as [|[]|r] eqn:E; [left; reflexivity|right; right; exact I|right; left; reflexivity|].
  right; right. rewrite value_max. cbn [at_most]. apply value_number in E. destruct E as (F & <-).
  eapply Rle_trans; [apply Rle_abs|apply le_max, F].
Qed.
Lemma value_lowest : value f64_lowest = Number (- val f64_max).
Proof.
  replace f64_lowest with (b64_opp f64_max) by (apply B2FF_inj; vm_compute; reflexivity). rewrite value_opp, value_max. reflexivity.
Qed.
Lemma at_least_lowest x : value x = NotANumber \/ value x = Infinity true \/ at_most (value f64_lowest) (value x).
Proof.
  rewrite value_lowest. destruct (value x) as [|[]|r] eqn:E; [left; reflexivity|right; left; reflexivity|right; right; exact I|].
  right; right. cbn [at_most]. apply value_number in E. destruct E as (F & <-).
  pose proof (le_max x F) as B. apply Rabs_le_inv in B. lra.
Qed.
Lemma abs_num x : value (b64_abs x) = NotANumber <-> value x = NotANumber.
Proof. rewrite value_abs. destruct (value x); cbn; split; congruence. Qed.
Lemma abs_nonneg x : value x = NotANumber \/ at_most (Number 0) (value (b64_abs x)).
Proof. rewrite value_abs. destruct (value x); cbn; [left; reflexivity|right; exact I|right; apply Rabs_pos]. Qed.

(** C181: get_min/get_max/get_abs_min/get_abs_max ignore NaN cells; get_min and
    get_abs_min also overlook infinity: with nothing else in the matrix they
    return the largest finite double. *)
Theorem C181_matrix_extrema :
  forall (cfg : Cfg) (M N : nat) (m : list f64) (f : nat -> nat -> f64), repM M N m f ->
  let cells (c : nat * nat) := (fst c < M)%nat /\ (snd c < N)%nat in
  let cell (c : nat * nat) := f (fst c) (snd c) in
  let size (c : nat * nat) := b64_abs (f (fst c) (snd c)) in
  returns (mat_get_min M N m) (fun b => least_of cells cell b /\
    ((exists c, cells c /\ value b = value (cell c)) \/
     (b = f64_max /\ forall c, cells c -> value (cell c) = NotANumber \/ value (cell c) = Infinity false))) /\
  returns (mat_get_max M N m) (fun b => greatest_of cells cell b /\
    ((exists c, cells c /\ value b = value (cell c)) \/
     (b = f64_zero /\ forall c, cells c -> value (cell c) = NotANumber \/ ~ at_most (Number 0) (value (cell c))))) /\
  returns (mat_get_abs_min M N m) (fun b => least_of cells size b /\
    ((exists c, cells c /\ value b = value (size c)) \/
     (b = f64_max /\ forall c, cells c -> value (cell c) = NotANumber \/ value (size c) = Infinity false))) /\
  returns (mat_get_abs_max M N m) (fun b => greatest_of cells size b /\
    ((exists c, cells c /\ value b = value (size c)) \/
     (b = f64_zero /\ forall c, cells c -> value (cell c) = NotANumber))).
Proof.
  intros cfg M N m f Hm cells cell size. pose proof (repM_repV_cell M N m f Hm) as Hv.
  assert (SU : forall k, (k < M * N)%nat -> exists c, cells c /\ f (k mod M)%nat (k / M)%nat = cell c).
  { intros k Hk. destruct (cell_surj M N k Hk) as (i & j & Hi & Hj & ->). exists (i, j). split; [split; assumption|].
    unfold cell. cbn [fst snd]. rewrite cell_mod, cell_div by exact Hi. reflexivity. }
  assert (IN : forall (Q : f64 -> Prop), (forall k, (k < M * N)%nat -> Q (f (k mod M)%nat (k / M)%nat)) -> forall c, cells c -> Q (cell c)).
  { intros Q HQ (i & j) [Hi Hj]. cbn [fst snd] in *. specialize (HQ (j * M + i)%nat (cell_lt M N i j Hi Hj)).
    rewrite cell_mod, cell_div in HQ by exact Hi. exact HQ. }
  assert (EX : forall (x : f64) (Q : nat * nat -> f64), (exists c, cells c /\ value x = value (Q c)) \/ (forall c, cells c -> value x <> value (Q c))).
  { intros x Q. destruct (Classical_Prop.classic (exists c, cells c /\ value x = value (Q c))) as [H|H]; [left; exact H|right].
    intros c Hc E. apply H. exists c. split; assumption. }
  assert (TR : forall a b c, at_most a b -> at_most b c -> at_most a c) by (intros a b c; apply at_most_trans).
  assert (TR' : forall a b c, at_most b a -> at_most c b -> at_most c a) by (intros a b c X Y; exact (at_most_trans _ _ _ Y X)).
  split; [|split; [|split]].
  - eapply returns_impl; [apply (run_best (M * N) m _ (fun x => x) (fun x b => sltb x b) at_most (fun _ => True) f64_max Hv I)|].
    + discriminate.
    + apply at_most_refl.
    + exact TR.
    + intros x b _ Nb. cbn [sltb F64Scalar]. split; intros H; [apply lt_true in H; tauto|apply lt_false; assumption].
    + intros b (Nb & HA & HB). split; [split; [exact Nb|exact (IN (fun x => value x = NotANumber \/ at_most (value b) (value x)) HA)]|].
      destruct HB as [->|(k & Hk & ->)].
      * destruct (EX f64_max cell) as [H|H]; [left; exact H|right]. split; [reflexivity|]. intros c Hc.
        destruct (IN (fun x => value x = NotANumber \/ at_most (value f64_max) (value x)) HA c Hc) as [H1|H1]; [left; exact H1|].
        destruct (at_most_max (cell c)) as [H2|[H2|H2]]; [left; exact H2|right; exact H2|].
        elim (H c Hc). apply at_most_antisym; assumption.
      * left. destruct (SU k Hk) as (c & Hc & E). exists c. split; [exact Hc|]. rewrite E. reflexivity.
  - eapply returns_impl; [apply (run_best (M * N) m _ (fun x => x) (fun x b => sltb b x) (fun a b => at_most b a) (fun _ => True) f64_zero Hv I)|].
    + discriminate.
    + apply at_most_refl.
    + exact TR'.
    + intros x b _ Nb. cbn [sltb F64Scalar]. split; intros H; [apply lt_true in H; tauto|apply lt_false'; assumption].
    + intros b (Nb & HA & HB). split; [split; [exact Nb|exact (IN (fun x => value x = NotANumber \/ at_most (value x) (value b)) HA)]|].
      destruct HB as [->|(k & Hk & ->)].
      * destruct (EX f64_zero cell) as [H|H]; [left; exact H|right]. split; [reflexivity|]. intros c Hc.
        destruct (IN (fun x => value x = NotANumber \/ at_most (value x) (value f64_zero)) HA c Hc) as [H1|H1]; [left; exact H1|right].
        intros H2. rewrite <- value_zero in H2. elim (H c Hc). apply at_most_antisym; assumption.
      * left. destruct (SU k Hk) as (c & Hc & E). exists c. split; [exact Hc|]. rewrite E. reflexivity.
  - eapply returns_impl; [apply (run_best (M * N) m _ b64_abs (fun x b => sltb (sabs x) (sabs b)) at_most (fun b => value (b64_abs b) = value b) f64_max Hv eq_refl)|].
    + discriminate.
    + apply at_most_refl.
    + exact TR.
    + intros x b Pb Nb. cbn [sltb sabs F64Scalar]. split; intros H.
      * apply lt_true in H. rewrite Pb in H. split; [|tauto]. rewrite !value_abs. destruct (value x); cbn; try reflexivity. rewrite Rabs_Rabsolu. reflexivity.
      * rewrite <- Pb in Nb. rewrite <- Pb. apply lt_false; assumption.
    + intros b (Nb & HA & HB). split; [split; [exact Nb|exact (IN (fun x => value (b64_abs x) = NotANumber \/ at_most (value b) (value (b64_abs x))) HA)]|].
      destruct HB as [->|(k & Hk & ->)].
      * destruct (EX f64_max size) as [H|H]; [left; exact H|right]. split; [reflexivity|]. intros c Hc.
        destruct (IN (fun x => value (b64_abs x) = NotANumber \/ at_most (value f64_max) (value (b64_abs x))) HA c Hc) as [H1|H1]; [left; apply abs_num, H1|].
        destruct (at_most_max (size c)) as [H2|[H2|H2]]; [left; apply abs_num, H2|right; exact H2|].
        elim (H c Hc). apply at_most_antisym; assumption.
      * left. destruct (SU k Hk) as (c & Hc & E). exists c. split; [exact Hc|]. unfold size. fold (cell c). rewrite E. reflexivity.
  - eapply returns_impl; [apply (run_best (M * N) m _ b64_abs (fun x b => sltb (sabs b) (sabs x)) (fun a b => at_most b a) (fun b => value (b64_abs b) = value b) f64_zero Hv)|].
    + rewrite value_abs, value_zero. cbn. rewrite Rabs_R0. reflexivity.
    + discriminate.
    + apply at_most_refl.
    + exact TR'.
    + intros x b Pb Nb. cbn [sltb sabs F64Scalar]. split; intros H.
      * apply lt_true in H. rewrite Pb in H. split; [|tauto]. rewrite !value_abs. destruct (value x); cbn; try reflexivity. rewrite Rabs_Rabsolu. reflexivity.
      * rewrite <- Pb in Nb. rewrite <- Pb. apply lt_false'; assumption.
    + intros b (Nb & HA & HB). split; [split; [exact Nb|exact (IN (fun x => value (b64_abs x) = NotANumber \/ at_most (value (b64_abs x)) (value b)) HA)]|].
      destruct HB as [->|(k & Hk & ->)].
      * destruct (EX f64_zero size) as [H|H]; [left; exact H|right]. split; [reflexivity|]. intros c Hc.
        destruct (IN (fun x => value (b64_abs x) = NotANumber \/ at_most (value (b64_abs x)) (value f64_zero)) HA c Hc) as [H1|H1]; [apply abs_num, H1|].
        destruct (abs_nonneg (cell c)) as [H2|H2]; [exact H2|]. elim (H c Hc). apply at_most_antisym; [exact H2|exact H1].
      * left. destruct (SU k Hk) as (c & Hc & E). exists c. split; [exact Hc|]. unfold size. fold (cell c). rewrite E. reflexivity.
Qed.
Print Assumptions C181_matrix_extrema.

(** C181: clamp() moves every number into the interval, exactly, and leaves NaN
    components as they are. *)
Theorem C181_clamp :
  forall (cfg : Cfg) (M : nat) (v : list f64) (f : nat -> f64) (lo hi : f64), repV M v f ->
  at_most (value lo) (value hi) ->
  returns (vec_clamp M v lo hi) (fun r => exists g, repV M r g /\ forall i, (i < M)%nat ->
    (value (f i) = NotANumber -> g i = f i) /\
    (value (f i) <> NotANumber -> at_most (value lo) (value (g i)) /\ at_most (value (g i)) (value hi)) /\
    (at_most (value lo) (value (f i)) -> at_most (value (f i)) (value hi) -> g i = f i) /\
    (value (f i) <> NotANumber -> ~ at_most (value lo) (value (f i)) -> g i = lo) /\
    (value (f i) <> NotANumber -> ~ at_most (value (f i)) (value hi) -> g i = hi)).
Proof.
  intros cfg M v f lo hi Hv LH. pose proof (at_most_num _ _ LH) as (NL & NH).
  eapply returns_impl; [apply (vec_clamp_spec M v f lo hi Hv)|]. cbn [sltb F64Scalar]. intros r Hr. eexists. split; [exact Hr|]. cbv beta zeta. intros i Hi.
  destruct (num_dec (value (f i))) as [X|X].
  - rewrite (Bltb_nan (f i) lo), (Bltb_nan hi (f i)) by auto. repeat split; intros; try reflexivity; exfalso; congruence.
  - assert (HLH : Bltb hi lo = false) by (apply Bltb_false_iff; assumption).
    destruct (Bltb (f i) lo) eqn:E1.
    + rewrite HLH. apply lt_true in E1. repeat split; try tauto; try apply at_most_refl; try assumption.
      intros _ H. exfalso. apply H. eapply at_most_trans; [|exact LH]. tauto.
    + apply (Bltb_false_iff (f i) lo X NL) in E1. destruct (Bltb hi (f i)) eqn:E2.
      * apply lt_true in E2. repeat split; try tauto; try apply at_most_refl; try assumption.
      * apply (Bltb_false_iff hi (f i) NH X) in E2. repeat split; try tauto; assumption.
Qed.
Print Assumptions C181_clamp.

(** C182: boxes.  Coordinates that are no numbers never get into a box. *)
Lemma fold_least (l : list f64) : forall b, value b <> NotANumber ->
  let r := fold_left (pick Bltb) l b in
  value r <> NotANumber /\ at_most (value r) (value b) /\ (forall x, In x l -> value x = NotANumber \/ at_most (value r) (value x)) /\ (r = b \/ In r l).
Proof.
  induction l as [|y l IH]; intros b Nb; cbv zeta.
  - repeat split; [exact Nb|apply at_most_refl, Nb|intros x []|left; reflexivity].
  - cbn [fold_left]. change (pick Bltb b y) with (if Bltb y b then y else b). destruct (Bltb y b) eqn:E.
    + pose proof (lt_true _ _ E) as (Ny & _ & L & _). destruct (IH y Ny) as (N & A & B & C). set (r := fold_left _ l y) in *.
      split; [exact N|]. split; [eapply at_most_trans; eassumption|]. split.
      * intros x [<-|Hx]; [right; exact A|exact (B x Hx)].
      * right. destruct C as [->|C]; [left; reflexivity|right; exact C].
    + destruct (IH b Nb) as (N & A & B & C). set (r := fold_left _ l b) in *. split; [exact N|]. split; [exact A|]. split.
      * intros x [<-|Hx]; [|exact (B x Hx)]. destruct (lt_false y b Nb E) as [H|H]; [left; exact H|right; eapply at_most_trans; eassumption].
      * destruct C as [->|C]; [left; reflexivity|right; right; exact C].
Qed.
Lemma fold_greatest (l : list f64) : forall b, value b <> NotANumber ->
  let r := fold_left (pick gtb) l b in
  value r <> NotANumber /\ at_most (value b) (value r) /\ (forall x, In x l -> value x = NotANumber \/ at_most (value x) (value r)) /\ (r = b \/ In r l).
Proof.
  induction l as [|y l IH]; intros b Nb; cbv zeta.
  - repeat split; [exact Nb|apply at_most_refl, Nb|intros x []|left; reflexivity].
  - cbn [fold_left]. change (pick gtb b y) with (if Bltb b y then y else b). destruct (Bltb b y) eqn:E.
    + pose proof (lt_true _ _ E) as (_ & Ny & L & _). destruct (IH y Ny) as (N & A & B & C). set (r := fold_left _ l y) in *.
      split; [exact N|]. split; [eapply at_most_trans; eassumption|]. split.
      * intros x [<-|Hx]; [right; exact A|exact (B x Hx)].
      * right. destruct C as [->|C]; [left; reflexivity|right; exact C].
    + destruct (IH b Nb) as (N & A & B & C). set (r := fold_left _ l b) in *. split; [exact N|]. split; [exact A|]. split.
      * intros x [<-|Hx]; [|exact (B x Hx)]. destruct (lt_false' b y Nb E) as [H|H]; [left; exact H|right; eapply at_most_trans; eassumption].
      * destruct C as [->|C]; [left; reflexivity|right; right; exact C].
Qed.

Theorem C182_merge_history :
  forall (cfg : Cfg) (h : list (ev f64)),
  returns (b <- box_default ;; merge_all h b) (fun b => exists lo hi,
    box_getMin b = l3 lo /\ box_getMax b = l3 hi /\ forall k, (k < 3)%nat ->
    (least_of (fun e => In e h) (fun e => comp k (ev_lo e)) (comp k lo) /\
     ((exists e, In e h /\ value (comp k lo) = value (comp k (ev_lo e))) \/
      (comp k lo = f64_max /\ forall e, In e h -> value (comp k (ev_lo e)) = NotANumber \/ value (comp k (ev_lo e)) = Infinity false))) /\
    (greatest_of (fun e => In e h) (fun e => comp k (ev_hi e)) (comp k hi) /\
     ((exists e, In e h /\ value (comp k hi) = value (comp k (ev_hi e))) \/
      (comp k hi = f64_lowest /\ forall e, In e h -> value (comp k (ev_hi e)) = NotANumber \/ value (comp k (ev_hi e)) = Infinity true)))).
Proof.
  intros cfg h. rewrite box_default_l3. cbn [bind]. rewrite merge_all_l3. apply returns_ok.
  do 2 eexists. split; [reflexivity|]. split; [reflexivity|]. intros k Hk. rewrite !comp_fold, !map_map.
  assert (C0 : forall x : f64, comp k (x, x, x) = x) by (intros x; destruct k as [|[|k]]; reflexivity). rewrite !C0.
  cbn [sltb smax slow F64Scalar F64Lowest]. split.
  - destruct (fold_least (map (fun e => comp k (ev_lo e)) h) f64_max ltac:(discriminate)) as (N & A & B & C). split.
    + split; [exact N|]. intros e He. apply B. apply in_map_iff. exists e. auto.
    + destruct C as [C|C].
      * rewrite C in *. destruct (Classical_Prop.classic (exists e, In e h /\ value f64_max = value (comp k (ev_lo e)))) as [H|H]; [left; exact H|right].
        split; [reflexivity|]. intros e He. destruct (B (comp k (ev_lo e))) as [H1|H1]; [apply in_map_iff; exists e; auto|left; exact H1|].
        destruct (at_most_max (comp k (ev_lo e))) as [H2|[H2|H2]]; [left; exact H2|right; exact H2|].
        elim H. exists e. split; [exact He|]. apply at_most_antisym; assumption.
      * left. apply in_map_iff in C. destruct C as (e & E & He). exists e. split; [exact He|]. rewrite E. reflexivity.
  - destruct (fold_greatest (map (fun e => comp k (ev_hi e)) h) f64_lowest ltac:(discriminate)) as (N & A & B & C). split.
    + split; [exact N|]. intros e He. apply B. apply in_map_iff. exists e. auto.
    + destruct C as [C|C].
      * rewrite C in *. destruct (Classical_Prop.classic (exists e, In e h /\ value f64_lowest = value (comp k (ev_hi e)))) as [H|H]; [left; exact H|right].
        split; [reflexivity|]. intros e He. destruct (B (comp k (ev_hi e))) as [H1|H1]; [apply in_map_iff; exists e; auto|left; exact H1|].
        destruct (at_least_lowest (comp k (ev_hi e))) as [H2|[H2|H2]]; [left; exact H2|right; exact H2|].
        elim H. exists e. split; [exact He|]. apply at_most_antisym; assumption.
      * left. apply in_map_iff in C. destruct C as (e & E & He). exists e. split; [exact He|]. rewrite E. reflexivity.
Qed.
Print Assumptions C182_merge_history.

(** C182: one more point changes exactly the coordinates in which it is a number
    outside the box; a point of NaNs changes nothing, whatever the box holds. *)
Theorem C182_merge_point :
  forall (cfg : Cfg) (lo hi p : f64 * f64 * f64),
  returns (merge_all [EPoint p] (l3 lo, l3 hi)) (fun b => exists lo' hi', b = (l3 lo', l3 hi') /\ forall k, (k < 3)%nat ->
    (value (comp k p) = NotANumber -> comp k lo' = comp k lo /\ comp k hi' = comp k hi) /\
    (at_most (value (comp k lo)) (value (comp k p)) -> at_most (value (comp k p)) (value (comp k hi)) -> comp k lo' = comp k lo /\ comp k hi' = comp k hi) /\
    (value (comp k lo) <> NotANumber -> value (comp k p) <> NotANumber -> ~ at_most (value (comp k lo)) (value (comp k p)) -> comp k lo' = comp k p) /\
    (value (comp k hi) <> NotANumber -> value (comp k p) <> NotANumber -> ~ at_most (value (comp k p)) (value (comp k hi)) -> comp k hi' = comp k p)).
Proof.
  intros cfg lo hi p. rewrite merge_all_l3. apply returns_ok. do 2 eexists. split; [reflexivity|]. intros k Hk.
  rewrite !comp_fold. cbn [map ev_lo ev_hi fold_left]. unfold pick, gtb. cbn [sltb F64Scalar].
  split; [|split; [|split]].
  - intros N. rewrite !Bltb_nan by auto. auto.
  - intros H1 H2. pose proof (at_most_num _ _ H1) as (N1 & N2). pose proof (at_most_num _ _ H2) as (_ & N3).
    rewrite (proj2 (Bltb_false_iff (comp k p) (comp k lo) N2 N1) H1), (proj2 (Bltb_false_iff (comp k hi) (comp k p) N3 N2) H2). auto.
  - intros N1 N2 H. destruct (Bltb (comp k p) (comp k lo)) eqn:E; [reflexivity|]. elim H. apply Bltb_false_iff; assumption.
  - intros N1 N2 H. destruct (Bltb (comp k hi) (comp k p)) eqn:E; [reflexivity|]. elim H. apply Bltb_false_iff; assumption.
Qed.
Print Assumptions C182_merge_point.

(** Non-trivial instances: (2, NaN, 1), whose least component has index 2, and
    (NaN, 1), whose "least" component is the NaN; a box grown by (1, NaN, inf). *)
Example C181_hypotheses_met :
  repV 3 [f64_two; f64_nan; f64_one] (fun i => nth i [f64_two; f64_nan; f64_one] f64_zero) /\
  value (nth 0 [f64_two; f64_nan; f64_one] f64_zero) <> NotANumber /\
  vec_find_min_index [f64_two; f64_nan; f64_one] = Ok 2%nat /\ vec_find_min_index [f64_nan; f64_one] = Ok 0%nat /\
  at_most (value f64_one) (value f64_two).
Proof.
  split; [apply repV_nth; reflexivity|]. split; [discriminate|]. split; [vm_compute; reflexivity|]. split; [vm_compute; reflexivity|].
  apply Bleb_at_most. vm_compute. reflexivity.
Qed.
Example C182_hypotheses_met : forall cfg : Cfg,
  (b <- box_default ;; merge_all [EPoint (f64_one, f64_nan, f64_inf)] b) = Ok ([f64_one; f64_max; f64_max], [f64_one; f64_lowest; f64_inf]).
Proof. intros cfg. reflexivity. Qed.
