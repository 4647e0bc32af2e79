(** * SkewFacts3: benches of round parts, and lenses *)
From Coq Require Import Reals Lra Lia List Bool ZArith Psatz Permutation.
Import ListNotations.
From Verif Require Import XR XRFacts Arr Lin LinFacts Ops OpsFacts SpecOptics Prim Csg Surf SpecGeom SpecTree CsgProps World SpecWorld BuildFacts Components SpecComponents ComponentOptics Tracer SpecTrace
  TraceFacts5 TraceFacts7 TraceProps SpecMotion SpecSymmetry SymmetryFacts LensAxis LensKinds SpecTrain TrainFacts ImageFacts SpecSkew SkewFacts SkewFacts2.
Open Scope R_scope.

Lemma moment_x : forall p d, moment (V4 0 0 0 1) (V4 1 0 0 0) p d = vy p * vz d - vz p * vy d.
Proof. intros [p1 p2 p3 p4] [d1 d2 d3 d4]. unfold moment, vsub, vadd, vopp, vscale; cbn. ring. Qed.
Lemma round_bench : forall asort, argsort_ok asort -> forall gen h t comps fuel t', proper gen h t comps -> trace asort h gen fuel t = TOk t' ->
  (forall s, In s (flat_map surface_ids comps) -> round_about_x s \/ s_mat s = Absorber) ->
  forall i w w', In w (rows_with_id i (f_rows (get_results t'))) -> In w' (rows_with_id i (f_rows (get_results t'))) -> twist w' = twist w.
Proof.
  intros asort AS gen h t comps fuel t' PR TR RD i w w' IW IW'.
  destruct (proper_bounces asort AS gen h t comps fuel t' PR TR i _ eq_refl) as (_ & B & _).
  assert (F : forall u, In u (rows_with_id i (f_rows (get_results t'))) -> exists k, nth_error (rows_with_id i (f_rows (get_results t'))) 0 = Some k /\ twist u = twist k).
  { intros u U. apply in_split in U. destruct U as (ws & after & R).
    exists (hd u ws). split; [rewrite R; destruct ws; reflexivity|].
    assert (FA : Forall (ends_about (flat_map surface_ids comps) (V4 0 0 0 1) (V4 1 0 0 0)) ws).
    { apply Forall_forall. intros v V. apply in_split in V. destruct V as (a & b & E).
      assert (N : nth_error (rows_with_id i (f_rows (get_results t'))) (length a) = Some v).
      { rewrite R, E, <- app_assoc, nth_error_app2, Nat.sub_diag by lia. reflexivity. }
      destruct (nth_error (rows_with_id i (f_rows (get_results t'))) (S (length a))) as [v'|] eqn:N'.
      - destruct (B _ _ _ N N') as (s & n & IN & ID & WN & U & L). exists s, n. do 3 (split; [assumption|]). destruct (RD s IN) as [RO|AB].
        + replace (moment (V4 0 0 0 1) (V4 1 0 0 0) (row_end v) n) with (moment (V4 0 0 0 1) (V4 1 0 0 0) (here (row_end v)) n) by (rewrite !moment_x; reflexivity).
          apply RO; auto.
        + rewrite AB in L. contradiction.
      - exfalso. apply nth_error_None in N'. rewrite R, E in N'. rewrite !app_length in N'. cbn in N'. lia. }
    destruct (kept_about asort AS gen h t comps fuel t' PR TR _ _ i [] ws u after R FA) as (K & _). rewrite !moment_x in K. exact K. }
  destruct (F w IW) as (k & K & E). destruct (F w' IW') as (k' & K' & E'). rewrite K in K'. injection K' as <-. congruence.
Qed.

Fixpoint leaves_as (P : prim -> mat -> Prop) (T : ptree) : Prop :=
  match T with TLeaf p _ w _ => P p w | TNode _ a b => leaves_as P a /\ leaves_as P b end.
Lemma leaves_of : forall P s, leaves_as P (erase s) -> forall f, In f (surface_ids s) -> P (s_prim f) (s_world f).
Proof.
  intros P. induction s as [g b|i op b l IHl r IHr]; cbn [erase leaves_as surface_ids]; intros H f I.
  - destruct I as [<- | []]. exact H.
  - apply in_app_iff in I. destruct H as (H1 & H2), I as [I|I]; auto.
Qed.
Lemma tree_surfs : forall s, tree_ok s -> forall f, In f (surface_ids s) -> surf_ok f.
Proof.
  induction s as [g b|i op b l IHl r IHr]; cbn [tree_ok surface_ids]; intros H f I.
  - destruct I as [<- | []]. exact H.
  - apply in_app_iff in I. destruct H as (H1 & H2), I as [I|I]; auto.
Qed.
Lemma tw_isometry : forall c, SpecMotion.isometry (tw 0 0 c).
Proof.
  intro c. split; [reflexivity|]. split; [exists (tobj 0 0 c); apply tw_inverse|]. intros [u1 u2 u3 u4] [v1 v2 v3 v4] U V. cbn in U, V. subst. unfold tw, mapply, vdot; cbn. ring.
Qed.
Lemma on_tw : forall c, on_axis (mapply (tw 0 0 c) oo) /\ on_axis (mapply (tw 0 0 c) ez).
Proof. intro c. unfold on_axis, tw, oo, ez, mapply, vdot; cbn. repeat split; ring. Qed.
Definition on_tw_leaf (ap : aperture_arg) (p : prim) (w : mat) : Prop :=
  (exists c, w = tw 0 0 c) /\ match ap with Round _ => forall a b, p <> PCube a b | _ => True end.
Lemma lens_leaves : forall l s, placed l s -> leaves_as (on_tw_leaf (l_ap l)) (erase s).
Proof.
  intros [by_ ap ix q] s (_ & _ & _ & p & H). cbn [l_by l_ap l_index l_at] in *.
  assert (SPH : forall r c, on_tw_leaf ap (PSphere r) (tw 0 0 c)) by (intros r c; split; [eauto|destruct ap; [discriminate|exact I]]).
  assert (AP : forall th c, create_aperture ap th = Some p -> on_tw_leaf ap p (tw 0 0 c)).
  { intros th c E. split; [eauto|]. destruct ap; [|exact I]. cbn in E. injection E as <-. discriminate. }
  assert (SIDE : forall cv r ce m T, leaves_as (on_tw_leaf ap) T -> leaves_as (on_tw_leaf ap) (turned_side cv r ce m T)).
  { intros cv r ce m T L. destruct r; cbn [turned_side leaves_as]; auto. }
  destruct by_ as [r1 r2 t|r1 r2 t|r t]; destruct H as (EP & ->).
  - unfold placed_erased. do 2 apply SIDE. cbn [leaves_as]. eapply AP; eauto.
  - cbn [biconvex_erased leaves_as]. split; [split; apply SPH|eapply AP; eauto].
  - cbn [plano_erased leaves_as]. split; [apply SPH|eapply AP; eauto].
Qed.
Lemma lens_round : forall asort, argsort_ok asort -> forall l s, lens_ok l -> made asort (lens_call l) s -> forall f, In f (surface_ids s) ->
  ((forall a b, s_prim f <> PCube a b) \/ exists d, l_ap l = Round d) -> round_about_x f.
Proof.
  intros asort AS l s OK M f I H. pose proof (made_placed asort l s AS OK M) as P.
  destruct (leaves_of _ s (lens_leaves l s P) f I) as ((c & W) & AP). destruct P as (_ & TO & _).
  apply axis_round.
  - eapply tree_surfs; eauto.
  - rewrite W. apply tw_isometry.
  - destruct H as [H|(d & E)]; auto. rewrite E in AP. exact AP.
  - rewrite W. apply on_tw.
  - intros _. rewrite W. apply on_tw.
Qed.
