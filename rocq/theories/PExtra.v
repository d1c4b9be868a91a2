(** Properties C86 (named accessors), C87 (static constants), C88 (CSV files),
    C89 (Quaternion::normal), and C82 for the remaining output operators. *)
From Verif Require Export MExtra PIo PQuaternion PSlerp PFrustum PVector1.
Local Open Scope nat_scope.
Local Open Scope list_scope.

(** C86.  Which component a name means. *)
Theorem C86_vector_accessors :
  forall (T : Type) (M : nat) (v : list T) (f : nat -> T),
  repV M v f ->
  (0 < M -> vec_comp v CX = Ok (f 0) /\ vec_comp v CR = Ok (f 0)) /\
  (1 < M -> vec_comp v CY = Ok (f 1) /\ vec_comp v CG = Ok (f 1)) /\
  (2 < M -> vec_comp v CZ = Ok (f 2) /\ vec_comp v CB = Ok (f 2)) /\
  (3 < M -> vec_comp v CW = Ok (f 3) /\ vec_comp v CA = Ok (f 3)) /\
  (* assigning through one name is seen through that name and its synonym,
     and through no other; everything else is unchanged *)
  (forall c x, comp_index c < M -> exists v' g, vec_comp_put v c x = Ok v' /\ repV M v' g /\
     vec_comp v' c = Ok x /\
     (forall c', comp_index c' = comp_index c -> vec_comp v' c' = Ok x) /\
     (forall c', comp_index c' <> comp_index c -> vec_comp v' c' = vec_comp v c') /\
     (forall i, i < M -> i <> comp_index c -> g i = f i)) /\
  (* a name beyond the dimension is never checked *)
  (forall c x, M <= comp_index c -> vec_comp v c = UB /\ vec_comp_put v c x = UB) /\
  map comp_index [CX; CY; CZ; CW; CR; CG; CB; CA] = [0; 1; 2; 3; 0; 1; 2; 3].
Proof.
  intros T M v f Hv. unfold vec_comp, vec_comp_put.
  assert (R : forall i, i < M -> rd v i = Ok (f i)) by (intros i Hi; exact (repV_rd _ _ _ _ Hv Hi)).
  split; [intros; split; apply R; cbn; lia|]. split; [intros; split; apply R; cbn; lia|].
  split; [intros; split; apply R; cbn; lia|]. split; [intros; split; apply R; cbn; lia|].
  split; [|split; [|reflexivity]].
  - intros c x Hc. destruct (repV_wr M v f (comp_index c) x Hv Hc) as (E & H).
    exists (upd v (comp_index c) x). eexists. split; [exact E|]. split; [exact H|].
    assert (S : rd (upd v (comp_index c) x) (comp_index c) = Ok x)
      by (rewrite (repV_rd _ _ _ _ H Hc), Nat.eqb_refl; reflexivity).
    split; [exact S|]. split; [intros c' ->; exact S|]. split.
    + intros c' Hne. unfold rd. rewrite nth_error_upd_other by congruence. reflexivity.
    + intros i Hi Hne. cbv beta. destruct (Nat.eqb_spec i (comp_index c)); [contradiction|reflexivity].
  - intros c x Hc. rewrite rd_ub, wr_ub by (rewrite (proj1 Hv); exact Hc). auto.
Qed.
Print Assumptions C86_vector_accessors.

Theorem C86_frustum_accessors :
  forall (lim : RLim) (l r b t n f : R) (s : side) (x : R),
  let fr := [l; r; b; t; n; f] in
  fr_side fr SLeft = Ok l /\ fr_side fr SRight = Ok r /\ fr_side fr SBottom = Ok b /\
  fr_side fr STop = Ok t /\ fr_side fr SNear = Ok n /\ fr_side fr SFar = Ok f /\
  fr_get_width fr = Ok (Rabs (r - l)) /\ fr_get_height fr = Ok (Rabs (t - b)) /\
  exists fr', fr_side_put fr s x = Ok fr' /\ fr_side fr' s = Ok x /\ length fr' = 6 /\
    forall s', s' <> s -> fr_side fr' s' = fr_side fr s'.
Proof.
  intros lim l r b t n f s x fr. repeat (split; [reflexivity|]).
  destruct s; (eexists; split; [reflexivity|]; split; [reflexivity|]; split; [reflexivity|];
    intros s' H; destruct s'; try reflexivity; congruence).
Qed.
Print Assumptions C86_frustum_accessors.
Example C86_hypotheses_met : repV 4 [1; 2; 3; 4] (fun i => S i) /\ comp_index CW < 4.
Proof. split; [split; [reflexivity|]; intros [|[|[|[|i]]]] H; try lia; reflexivity|cbn; lia]. Qed.

(** C87.  The named directions: three components as documented, every further
    component zero; with fewer than three components defining them already
    writes outside the array. *)
Theorem C87_static_constants :
  forall (cfg : Cfg) (T : Type) (ST : Scalar T) (M : nat),
  let dir (c : res (list T)) (x y z : T) :=
    (3 <= M -> returns c (fun v => repV M v (fun i => nth i [x; y; z] szero))) /\ (M < 3 -> c = UB) in
  dir (vec_FORWARD M) szero szero (sopp sone) /\ dir (vec_BACKWARD M) szero szero sone /\
  dir (vec_UP M) szero sone szero /\ dir (vec_DOWN M) szero (sopp sone) szero /\
  dir (vec_LEFT M) (sopp sone) szero szero /\ dir (vec_RIGHT M) sone szero szero /\
  dir (vec_UNIT_X M) sone szero szero /\ dir (vec_UNIT_Y M) szero sone szero /\
  dir (vec_UNIT_Z M) szero szero sone /\
  returns (vec_ONE M) (fun v => repV M v (fun _ => sone)) /\
  returns (vec_ZERO M) (fun v => repV M v (fun _ => szero)).
Proof.
  intros cfg T ST M dir.
  assert (G : forall x y z, dir (vec_static3 M x y z) x y z).
  { intros x y z. split.
    - intros H. unfold vec_static3, vec_set3. destruct M as [|[|[|M]]]; try lia.
      eexists. split; [reflexivity|]. split; [cbn; rewrite repeat_length; reflexivity|].
      intros [|[|[|i]]] Hi; try reflexivity. cbn [repeat upd nth_error nth].
      rewrite nth_error_repeat by lia. destruct i; reflexivity.
    - intros H. unfold vec_static3, vec_set3. destruct M as [|[|[|M]]]; try lia; reflexivity. }
  assert (F : forall x, returns (vec_ctor_fill M (repeat szero M) x) (fun v => repV M v (fun _ => x))).
  { intros x. unfold vec_ctor_fill. apply (fill1_all M _ (fun _ => szero)); [apply repV_repeat|]. intros; reflexivity. }
  repeat (split; [apply G|]). split; apply F.
Qed.
Print Assumptions C87_static_constants.

(** ... and form the right-handed OpenGL camera frame. *)
Theorem C87_frame :
  forall (cfg : Cfg) (lim : RLim),
  exists r u b f d l : list R,
    vec_RIGHT 3 = Ok r /\ vec_UP 3 = Ok u /\ vec_BACKWARD 3 = Ok b /\
    vec_FORWARD 3 = Ok f /\ vec_DOWN 3 = Ok d /\ vec_LEFT 3 = Ok l /\
    vec_UNIT_X 3 = Ok r /\ vec_UNIT_Y 3 = Ok u /\ vec_UNIT_Z 3 = Ok b /\
    vec_negate 3 b = Ok f /\ vec_negate 3 u = Ok d /\ vec_negate 3 r = Ok l /\
    free_cross r u = Ok b /\ free_cross u b = Ok r /\ free_cross b r = Ok u /\
    free_dot 3 r u = Ok 0%R /\ free_dot 3 u b = Ok 0%R /\ free_dot 3 b r = Ok 0%R /\
    vec_length 3 r = Ok 1%R /\ vec_length 3 u = Ok 1%R /\ vec_length 3 b = Ok 1%R.
Proof.
  intros cfg lim. exists [1; 0; 0]%R, [0; 1; 0]%R, [0; 0; 1]%R, [0; 0; -(1)]%R, [0; -(1); 0]%R, [-(1); 0; 0]%R.
  repeat (split; [reflexivity|]).
  assert (N : forall x y z : R, vec_negate 3 [x; y; z] = Ok [-x; -y; -z]%R) by (intros; destruct cfg as [[]]; reflexivity).
  rewrite !N.
  assert (C : forall x y z x' y' z' : R, free_cross [x; y; z] [x'; y'; z'] =
     Ok [y * z' - z * y'; z * x' - x * z'; x * y' - y * x']%R) by (intros; destruct cfg as [[]]; reflexivity).
  rewrite !C.
  assert (D : forall x y z x' y' z' : R, free_dot 3 [x; y; z] [x'; y'; z'] = Ok (0 + x * x' + y * y' + z * z')%R)
    by (intros; destruct cfg as [[]]; reflexivity).
  rewrite !D.
  assert (L : forall x y z : R, (x * x + y * y + z * z = 1)%R -> vec_length 3 [x; y; z] = Ok 1%R).
  { intros x y z H. change [x; y; z] with (v3 (x, y, z)).
    destruct (C36_dot_length_distance_values cfg lim 3 (v3 (x, y, z)) (v3 (x, y, z)) (fn3 (x, y, z)) (fn3 (x, y, z)) (v3_rep _) (v3_rep _))
      as (_ & _ & E & _). rewrite E. f_equal. cbn [rsum fn3].
    replace (0 + x * x + y * y + z * z)%R with 1%R by lra. apply sqrt_1. }
  rewrite !L by lra.
  repeat split; f_equal; try lra; repeat (apply (f_equal2 (@cons R)); [lra|]); reflexivity.
Qed.
Print Assumptions C87_frame.
Example C87_hypotheses_met : 3 <= 4 /\ 2 < 3.
Proof. split; lia. Qed.

(** C88.  read_csv_file() never changes the matrix, whatever the files contain,
    so it does not read back what write_csv_file() wrote, although both use the
    same path. *)
Theorem C88_csv_read_refuted :
  forall (T : Type) (m n : list T) (text : list ascii) (dir file : string) (cc : string -> bool) (fs : files),
  mat_read_csv (mat_write_csv cc fs text dir file) n dir file = n /\
  (m <> n -> mat_read_csv (mat_write_csv cc fs text dir file) n dir file <> m).
Proof.
  intros T m n text dir file cc fs. assert (E : forall fs', mat_read_csv fs' n dir file = n).
  { intros fs'. unfold mat_read_csv. destruct (fs' _); reflexivity. }
  rewrite E. split; [reflexivity|congruence].
Qed.
Print Assumptions C88_csv_read_refuted.

(** The written file holds the printed matrix; no other file changes. *)
Theorem C88_csv_write_partial :
  forall (text : list ascii) (dir file : string) (cc : string -> bool) (fs : files),
  let fs' := mat_write_csv cc fs text dir file in
  (cc (csv_path dir file) = true -> fs' (csv_path dir file) = Some (text ++ ["010"%char])) /\
  (cc (csv_path dir file) = false -> forall p, fs' p = fs p) /\
  (forall p, p <> csv_path dir file -> fs' p = fs p).
Proof.
  intros text dir file cc fs fs'. unfold fs', mat_write_csv. destruct (cc (csv_path dir file)).
  - split; [intros _; unfold file_put; rewrite String.eqb_refl; reflexivity|]. split; [discriminate|].
    intros p Hp. unfold file_put. destruct (String.eqb_spec p (csv_path dir file)); [contradiction|reflexivity].
  - split; [discriminate|]. split; reflexivity.
Qed.
Print Assumptions C88_csv_write_partial.
Example C88_hypotheses_met : csv_path "out" "m" = "out/m.csv"%string /\ csv_path "out/" "m.csv" = "out/m.csv"%string.
Proof. split; reflexivity. Qed.

(** C89.  Quaternion::normal() does not depend on its arguments: the
    four-argument form only normalises the quaternion, the three-argument form
    always returns the identity. *)
Theorem C89_normal_refuted :
  forall (lim : RLim) (q aa bb cc dd : Quat),
  q_normal4 (ql q) (ql aa) (ql bb) (ql cc) (ql dd) = q_get_normalized (ql q) /\
  q_normal3 (ql q) (ql aa) (ql bb) (ql cc) = Ok (ql (0, 0, 0, 1)%R).
Proof.
  intros lim q aa bb cc dd.
  assert (X : forall p r, exists v, q_cross (ql p) (ql r) = Ok v).
  { intros p r. dq p; dq r. eexists; reflexivity. }
  assert (G : forall p a b c d, q_normal4 (ql p) (ql a) (ql b) (ql c) (ql d) = q_get_normalized (ql p)).
  { intros p a b c d. unfold q_normal4, q_get_normalized. rewrite !q_sub_R. cbn [bind].
    destruct (X p (qsubR b a)) as (? & ->). destruct (X p (qsubR c a)) as (? & ->). destruct (X p (qsubR d a)) as (? & ->).
    reflexivity. }
  split; [apply G|]. unfold q_normal3.
  change (q_default) with (Ok (ql (0, 0, 0, 1)%R)). cbn [bind]. rewrite G.
  unfold q_get_normalized. rewrite q_normalize_unit; [reflexivity|]. unfold qdotR; lra.
Qed.
Print Assumptions C89_normal_refuted.

(** C82 for the other printable classes: a frustum or a box behaves like a
    vector (the right bit stays set), a quaternion leaves the format alone. *)
Section Fmt2.
Context {T : Type} (show_fmt : fmt -> T -> list ascii).
Theorem C82_other_classes :
  forall (fr q mn mx : list T) (out : list ascii) (f : fmt),
  length fr = 6 -> length q = 4 ->
  let after g := f_left g = f_left f /\ f_right g = true /\ f_internal g = f_internal f /\ f_prec g = f_prec f in
  returns (fr_print show_fmt fr (out, f)) (fun st => after (snd st)) /\
  after (snd (box_print show_fmt mn mx (out, f))) /\
  returns (q_print show_fmt q (out, f)) (fun st => same_flags (snd st) f /\ f_width (snd st) = 0%Z).
Proof.
  intros fr q mn mx out f Hf Hq after. split; [|split].
  - destruct fr as [|a [|b [|c [|d [|e [|g [|]]]]]]]; try discriminate. eexists. split; [reflexivity|]. cbn. repeat split.
  - unfold box_print. destruct (vec_print show_fmt mn (out, f)) as [o g] eqn:E.
    pose proof (proj1 (C82_format_after show_fmt mn [] out f)) as A. cbv zeta in A. rewrite E in A. cbn [snd] in A.
    destruct A as (A1 & A2 & A3 & A4). unfold put_str.
    match goal with |- context [vec_print show_fmt mx (?o2, ?g2)] =>
      pose proof (proj1 (C82_format_after show_fmt mx [] o2 g2)) as B end. cbv zeta in B. cbn in B |- *.
    unfold after. destruct B as (B1 & B2 & B3 & B4). rewrite B1, B3, B4. repeat split; try assumption.
  - destruct q as [|a [|b [|c [|d [|]]]]]; try discriminate. eexists. split; [reflexivity|]. cbn. repeat split.
Qed.
End Fmt2.
Print Assumptions C82_other_classes.
