(** The real-number instance: exact arithmetic.  Division by zero and square
    roots of negative numbers are [NonFin].  [rmax] and [reps] stand for
    std::numeric_limits< T >::max() and epsilon() of the element type. *)
From Coq Require Export Reals Lra.
From Verif Require Export Scalar.

Definition Rltb (a b : R) : bool := if Rlt_dec a b then true else false.
Definition Rleb (a b : R) : bool := if Rle_dec a b then true else false.
Definition Reqb (a b : R) : bool := if Req_EM_T a b then true else false.

Class RLim := {
  rmax : R;
  reps : R;
  rmax_pos : (0 < rmax)%R;
  reps_pos : (0 < reps)%R
}.

#[export] Instance RScalar `{RLim} : Scalar R := {
  szero := 0%R;
  sone := 1%R;
  shalf := (/ 2)%R;
  stwo := 2%R;
  sadd := Rplus;
  ssub := Rminus;
  smul := Rmult;
  sopp := Ropp;
  sabs := Rabs;
  sdiv a b := if Reqb b 0 then NonFin else Ok (a / b)%R;
  ssqrt a := if Rltb a 0 then NonFin else Ok (sqrt a);
  sltb := Rltb;
  sleb := Rleb;
  seqb := Reqb;
  sbits := Reqb;
  smax := rmax;
  slowest := (- rmax)%R;
  seps := reps
}.

#[export] Instance RTrig : Trig R := { ssin := sin; scos := cos; stan := tan }.

Lemma Rltb_true a b : (a < b)%R -> Rltb a b = true.
Proof. unfold Rltb; destruct (Rlt_dec a b); tauto. Qed.
Lemma Rltb_false a b : (b <= a)%R -> Rltb a b = false.
Proof. unfold Rltb; destruct (Rlt_dec a b); intros; [lra|easy]. Qed.
Lemma Rltb_iff a b : Rltb a b = true <-> (a < b)%R.
Proof. unfold Rltb; destruct (Rlt_dec a b); split; intros; easy. Qed.
Lemma Rltb_spec a b : reflect (a < b)%R (Rltb a b).
Proof. unfold Rltb; destruct (Rlt_dec a b); constructor; easy. Qed.
Lemma Rleb_true a b : (a <= b)%R -> Rleb a b = true.
Proof. unfold Rleb; destruct (Rle_dec a b); tauto. Qed.
Lemma Rleb_false a b : (b < a)%R -> Rleb a b = false.
Proof. unfold Rleb; destruct (Rle_dec a b); intros; [lra|easy]. Qed.
Lemma Rleb_iff a b : Rleb a b = true <-> (a <= b)%R.
Proof. unfold Rleb; destruct (Rle_dec a b); split; intros; easy. Qed.
Lemma Rleb_spec a b : reflect (a <= b)%R (Rleb a b).
Proof. unfold Rleb; destruct (Rle_dec a b); constructor; easy. Qed.
Lemma Reqb_true a b : a = b -> Reqb a b = true.
Proof. unfold Reqb; destruct (Req_EM_T a b); tauto. Qed.
Lemma Reqb_false a b : a <> b -> Reqb a b = false.
Proof. unfold Reqb; destruct (Req_EM_T a b); tauto. Qed.
Lemma Reqb_iff a b : Reqb a b = true <-> a = b.
Proof. unfold Reqb; destruct (Req_EM_T a b); split; intros; easy. Qed.
Lemma Reqb_spec a b : reflect (a = b) (Reqb a b).
Proof. unfold Reqb; destruct (Req_EM_T a b); constructor; easy. Qed.
