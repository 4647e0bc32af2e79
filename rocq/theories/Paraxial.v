(** * Paraxial: rays near the axis, to first order in their height *)
From Coq Require Import Reals Lra Lia Psatz.
Open Scope R_scope.

(** ** Limits at height zero *)
Definition ev (P : R -> Prop) : Prop := exists d, 0 < d /\ forall y, 0 < Rabs y -> Rabs y < d -> P y.
Definition lim (f : R -> R) (l : R) : Prop := limit1_in f (fun y => y <> 0) l 0.
Lemma ev_and : forall P Q, ev P -> ev Q -> ev (fun y => P y /\ Q y).
Proof.
  intros P Q (d & D & H) (d' & D' & H'). exists (Rmin d d'). split; [apply Rmin_pos; auto|]. intros y Y0 Y.
  pose proof (Rmin_l d d'). pose proof (Rmin_r d d'). split; [apply H|apply H']; lra.
Qed.
Lemma ev_impl : forall P Q : R -> Prop, (forall y, y <> 0 -> P y -> Q y) -> ev P -> ev Q.
Proof.
  intros P Q I (d & D & H). exists d. split; [exact D|]. intros y Y0 Y. apply I; [|auto].
  intro E. subst. rewrite Rabs_R0 in Y0. lra.
Qed.
Lemma ev_all : forall P : R -> Prop, (forall y, P y) -> ev P.
Proof. intros P H. exists 1. split; [lra|auto]. Qed.
Lemma lim_ev : forall f l, lim f l <-> forall e, 0 < e -> ev (fun y => Rabs (f y - l) < e).
Proof.
  intros f l. unfold lim, limit1_in, limit_in; cbn. unfold R_dist. split; intros H e E.
  - destruct (H e E) as (a & A & B). exists a. split; [exact A|]. intros y Y0 Y. apply B. split; [intro; subst; rewrite Rabs_R0 in Y0; lra|].
    rewrite Rminus_0_r. exact Y.
  - destruct (H e E) as (a & A & B). exists a. split; [exact A|]. intros y (Y0 & Y). rewrite Rminus_0_r in Y. apply B; [apply Rabs_pos_lt; exact Y0|exact Y].
Qed.
Lemma lim_ext : forall f g l, ev (fun y => f y = g y) -> lim f l -> lim g l.
Proof.
  intros f g l E F. apply lim_ev. intros e P. eapply ev_impl; [|apply ev_and; [exact E|apply (proj1 (lim_ev f l) F e P)]].
  cbv beta. intros y _ (<- & H). exact H.
Qed.
Lemma lim_same : forall f g l, (forall y, y <> 0 -> f y = g y) -> lim f l -> lim g l.
Proof. intros f g l E. apply lim_ext. exists 1. split; [lra|]. intros y Y _. apply E. intro; subst. rewrite Rabs_R0 in Y. lra. Qed.
Lemma lim_to : forall f l l', l = l' -> lim f l -> lim f l'.
Proof. intros f l l' ->. auto. Qed.
Lemma lim_const : forall c, lim (fun _ => c) c.
Proof. intro c. apply lim_ev. intros e E. apply ev_all. intro y. rewrite Rminus_diag_eq, Rabs_R0; auto. Qed.
Lemma lim_id : lim (fun y => y) 0.
Proof. apply lim_ev. intros e E. exists e. split; [exact E|]. intros y _ Y. rewrite Rminus_0_r. exact Y. Qed.
Lemma lim_add : forall f g a b, lim f a -> lim g b -> lim (fun y => f y + g y) (a + b).
Proof. intros. apply limit_plus; auto. Qed.
Lemma lim_sub : forall f g a b, lim f a -> lim g b -> lim (fun y => f y - g y) (a - b).
Proof. intros. apply limit_minus; auto. Qed.
Lemma lim_opp : forall f a, lim f a -> lim (fun y => - f y) (- a).
Proof. intros. apply limit_Ropp; auto. Qed.
Lemma lim_mul : forall f g a b, lim f a -> lim g b -> lim (fun y => f y * g y) (a * b).
Proof. intros. apply limit_mul; auto. Qed.
Lemma lim_scal : forall c f a, lim f a -> lim (fun y => c * f y) (c * a).
Proof. intros. apply (lim_mul (fun _ => c)); [apply lim_const|assumption]. Qed.
Lemma lim_div : forall f g a b, b <> 0 -> lim f a -> lim g b -> lim (fun y => f y / g y) (a / b).
Proof. intros f g a b B F G. unfold Rdiv. apply lim_mul; [exact F|]. apply limit_inv; auto. Qed.
Lemma lim_comp : forall g f l, continuity_pt g l -> lim f l -> lim (fun y => g (f y)) (g l).
Proof.
  intros g f l C F. apply lim_ev. intros e E. destruct (C e E) as (a & A & B). cbn in B. unfold R_dist in B.
  eapply ev_impl; [|apply (proj1 (lim_ev f l) F a A)]. cbv beta. intros y _ H.
  destruct (Req_dec (f y) l) as [->|N]; [rewrite Rminus_diag_eq, Rabs_R0; auto|]. apply B. split; [split; [exact Logic.I|congruence]|exact H].
Qed.
Lemma lim_sqrt : forall f l, 0 <= l -> lim f l -> lim (fun y => sqrt (f y)) (sqrt l).
Proof. intros f l L. apply (lim_comp sqrt). apply continuity_pt_sqrt. exact L. Qed.
Lemma lim_abs : forall f l, lim f l -> lim (fun y => Rabs (f y)) (Rabs l).
Proof. intros f l. apply (lim_comp Rabs). apply Rcontinuity_abs. Qed.
Lemma lim_gt : forall f l c, lim f l -> c < l -> ev (fun y => c < f y).
Proof.
  intros f l c F L. eapply ev_impl; [|apply (proj1 (lim_ev f l) F (l - c)); lra]. cbv beta. intros y _ H. apply Rabs_def2 in H. lra.
Qed.
Lemma lim_lt : forall f l c, lim f l -> l < c -> ev (fun y => f y < c).
Proof.
  intros f l c F L. eapply ev_impl; [|apply (proj1 (lim_ev f l) F (c - l)); lra]. cbv beta. intros y _ H. apply Rabs_def2 in H. lra.
Qed.
Lemma lim_lt2 : forall f g l m, lim f l -> lim g m -> l < m -> ev (fun y => f y < g y).
Proof.
  intros f g l m F G L. eapply ev_impl; [|apply (lim_gt _ _ 0 (lim_sub _ _ _ _ G F)); lra]. cbv beta. intros. lra.
Qed.

(** ** A ray in a plane through the axis, whose height vanishes with [y] *)
Definition paraxial (X Y DX DY : R -> R) (x h u : R) : Prop :=
  lim X x /\ lim (fun y => Y y / y) h /\ lim DX 1 /\ lim (fun y => DY y / y) u /\ ev (fun y => DX y * DX y + DY y * DY y = 1).
Lemma slope_zero : forall f h, lim (fun y => f y / y) h -> lim f 0.
Proof.
  intros f h H. apply (lim_same (fun y => f y / y * y)); [intros y Y; field; exact Y|].
  apply (lim_to _ (h * 0)); [ring|]. apply lim_mul; [exact H|apply lim_id].
Qed.
Section Ray.
  Variables X Y DX DY : R -> R.
  Variables x h u : R.
  Hypothesis P : paraxial X Y DX DY x h u.
  Lemma par_X : lim X x. Proof. apply P. Qed.
  Lemma par_H : lim (fun y => Y y / y) h. Proof. apply P. Qed.
  Lemma par_DX : lim DX 1. Proof. apply P. Qed.
  Lemma par_U : lim (fun y => DY y / y) u. Proof. apply P. Qed.
  Lemma par_unit : ev (fun y => DX y * DX y + DY y * DY y = 1). Proof. apply P. Qed.
  Lemma par_Y : lim Y 0. Proof. eapply slope_zero. apply par_H. Qed.
  Lemma par_DY : lim DY 0. Proof. eapply slope_zero. apply par_U. Qed.

  (** advancing *)
  Lemma par_step : forall T t, lim T t -> paraxial (fun y => X y + T y * DX y) (fun y => Y y + T y * DY y) DX DY (x + t) (h + t * u) u.
  Proof.
    intros T t L. split; [|split; [|split; [exact par_DX|split; [exact par_U|exact par_unit]]]].
    - apply (lim_to _ (x + t * 1)); [ring|]. apply lim_add; [exact par_X|]. apply lim_mul; [exact L|exact par_DX].
    - apply (lim_same (fun y => Y y / y + T y * (DY y / y))); [intros y N; field; exact N|].
      apply lim_add; [exact par_H|]. apply lim_mul; [exact L|exact par_U].
  Qed.

  (** the time to a plane across the axis *)
  Definition plane_time (p : R) (y : R) : R := (p - X y) / DX y.
  Lemma lim_plane : forall p, lim (plane_time p) (p - x).
  Proof.
    intro p. apply (lim_to _ ((p - x) / 1)); [field|]. apply lim_div; [lra| |exact par_DX]. apply lim_sub; [apply lim_const|exact par_X].
  Qed.
  (** the two times to a sphere centred on the axis *)
  Definition dot_time (c : R) (y : R) : R := DX y * (X y - c) + DY y * Y y.
  Definition chord_sq (c r : R) (y : R) : R := dot_time c y * dot_time c y - ((X y - c) * (X y - c) + Y y * Y y - r * r).
  Definition ball_time (sg c r : R) (y : R) : R := - dot_time c y + sg * sqrt (chord_sq c r y).
  Lemma lim_dot : forall c, lim (dot_time c) (x - c).
  Proof.
    intro c. apply (lim_to _ (1 * (x - c) + 0 * 0)); [ring|]. apply lim_add; apply lim_mul; [exact par_DX| |exact par_DY|exact par_Y].
    apply lim_sub; [exact par_X|apply lim_const].
  Qed.
  Lemma lim_chord : forall c r, lim (chord_sq c r) (r * r).
  Proof.
    intros c r. apply (lim_to _ ((x - c) * (x - c) - ((x - c) * (x - c) + 0 * 0 - r * r))); [ring|].
    apply lim_sub; [apply lim_mul; apply lim_dot|]. apply lim_sub; [|apply lim_const]. apply lim_add; apply lim_mul; try exact par_Y;
      (apply lim_sub; [exact par_X|apply lim_const]).
  Qed.
  Lemma lim_ball : forall sg c r, lim (ball_time sg c r) (c - x + sg * Rabs r).
  Proof.
    intros sg c r. apply (lim_to _ (- (x - c) + sg * sqrt (r * r))).
    - replace (r * r) with (Rsqr r) by reflexivity. rewrite sqrt_Rsqr_abs. ring.
    - apply lim_add; [apply lim_opp, lim_dot|]. apply lim_scal. apply lim_sqrt; [nra|apply lim_chord].
  Qed.

  (** refraction at a surface of curvature [k], from the index [n] to [m] *)
  Variable C : R -> R.
  Variables k n m : R.
  Hypothesis LC : lim C 1.
  Hypothesis UN : ev (fun y => C y * C y + k * Y y * (k * Y y) = 1).
  Definition cos_in (y : R) : R := DX y * C y - DY y * (k * Y y).
  Definition cos_sq (y : R) : R := 1 - n / m * (n / m) * (1 - cos_in y * cos_in y).
  Definition bent_x (y : R) : R := n / m * DX y - (n / m * cos_in y - sqrt (cos_sq y)) * C y.
  Definition bent_y (y : R) : R := n / m * DY y + (n / m * cos_in y - sqrt (cos_sq y)) * (k * Y y).
  Lemma lim_cos : lim cos_in 1.
  Proof.
    apply (lim_to _ (1 * 1 - 0 * (k * 0))); [ring|]. apply lim_sub; apply lim_mul; [exact par_DX|exact LC|exact par_DY|]. apply lim_scal. exact par_Y.
  Qed.
  Lemma lim_cos_sq : lim cos_sq 1.
  Proof.
    apply (lim_to _ (1 - n / m * (n / m) * (1 - 1 * 1))); [ring|]. apply lim_sub; [apply lim_const|]. apply lim_scal.
    apply lim_sub; [apply lim_const|]. apply lim_mul; apply lim_cos.
  Qed.
  Lemma lim_factor : lim (fun y => n / m * cos_in y - sqrt (cos_sq y)) (n / m - 1).
  Proof.
    apply (lim_to _ (n / m * 1 - sqrt 1)); [rewrite sqrt_1; ring|]. apply lim_sub; [apply lim_scal, lim_cos|]. apply lim_sqrt; [lra|apply lim_cos_sq].
  Qed.
  Lemma par_bend : paraxial X Y bent_x bent_y x h (n / m * u + (n / m - 1) * (k * h)).
  Proof.
    split; [exact par_X|]. split; [exact par_H|]. split; [|split].
    - apply (lim_to _ (n / m * 1 - (n / m - 1) * 1)); [ring|]. apply lim_sub; [apply lim_scal, par_DX|]. apply lim_mul; [apply lim_factor|exact LC].
    - apply (lim_same (fun y => n / m * (DY y / y) + (n / m * cos_in y - sqrt (cos_sq y)) * (k * (Y y / y)))).
      { intros y N. unfold bent_y. unfold Rdiv. ring. }
      apply lim_add; [apply lim_scal, par_U|]. apply lim_mul; [apply lim_factor|]. apply lim_scal, par_H.
    - eapply ev_impl; [|apply ev_and; [exact par_unit|apply ev_and; [exact UN|apply (lim_gt _ _ 0 lim_cos_sq); lra]]].
      cbv beta. intros y _ (U & V & G). unfold bent_x, bent_y. assert (S := sqrt_sqrt _ (Rlt_le _ _ G)).
      set (s := sqrt (cos_sq y)) in *. unfold cos_sq in S. unfold cos_in in *. set (q := n / m) in *. set (kk := k * Y y) in *.
      clearbody kk q s. set (a := DX y) in *. set (b := DY y) in *. set (cc := C y) in *. clearbody a b cc. clear - U V S.
      assert (E : (q * a - (q * (a * cc - b * kk) - s) * cc) * (q * a - (q * (a * cc - b * kk) - s) * cc) +
         (q * b + (q * (a * cc - b * kk) - s) * kk) * (q * b + (q * (a * cc - b * kk) - s) * kk) =
         q * q * (a * a + b * b) - 2 * q * (q * (a * cc - b * kk) - s) * (a * cc - b * kk) +
         (q * (a * cc - b * kk) - s) * (q * (a * cc - b * kk) - s) * (cc * cc + kk * kk)) by ring.
      rewrite E, U, V. clear E U V. nra.
  Qed.
End Ray.
