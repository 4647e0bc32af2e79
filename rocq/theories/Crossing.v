(** * Crossing: the first crossing is the first hit *)
From Coq Require Import Reals Lra Lia List Bool ZArith Permutation Sorted.
Import ListNotations.
From Verif Require Import XR XRFacts Arr ArrFacts Lin LinFacts Prim Csg SpecCsg CsgFacts Surf SpecGeom SpecTree PrimFacts2 CsgProps TreeFacts SurfFacts
  Tracer SpecTrace TraceFacts3 FirstHit SpecCrossing.
Open Scope R_scope.

Lemma gap : forall (L : list R) q, exists eps, 0 < eps /\ forall t, In t L -> t <> q -> eps <= Rabs (t - q).
Proof.
  induction L as [|x L IH]; intro q.
  - exists 1. split; [lra|]. intros t [].
  - destruct (IH q) as (e & E & H). destruct (Req_dec x q) as [->|N].
    + exists e. split; auto. intros t [->|I] D; [lra|auto].
    + exists (Rmin e (Rabs (x - q))). split; [apply Rmin_glb_lt; auto; apply Rabs_pos_lt; lra|].
      intros t [->|I] D; [apply Rmin_r|]. eapply Rle_trans; [apply Rmin_l|]; auto.
Qed.
Definition finites (l : list xr) : list R := flat_map (fun x => match x with Fin t => [t] | _ => [] end) l.
Lemma in_finites : forall l t, In t (finites l) <-> In (Fin t) l.
Proof.
  intros l t. unfold finites. rewrite in_flat_map. split.
  - intros ([x| | |] & I & J); simpl in J; try contradiction. destruct J as [->|[]]; auto.
  - intro I. exists (Fin t). simpl; auto.
Qed.
Lemma before_other : forall x a b, (forall t, x <> Fin t) -> before xsle x (Fin a) = before xsle x (Fin b).
Proof. intros [t| | |] a b N; [elim (N t); auto|reflexivity..]. Qed.
Lemma below_cross : forall l a q b, a < q < b -> (forall t, In (Fin t) l -> a <= t < b -> t = q) ->
  below xsle (Fin b) l = (below xsle (Fin a) l + count_occ xr_eq_dec l (Fin q))%nat.
Proof.
  unfold below. induction l as [|x l IH]; intros a q b B H; [reflexivity|]. specialize (IH a q b B (fun t I => H t (or_intror I))).
  assert (C : forall m n k, m = (n + k)%nat -> before xsle x (Fin b) = orb (before xsle x (Fin a)) (if xr_eq_dec x (Fin q) then true else false) ->
    (before xsle x (Fin a) = true -> x <> Fin q) ->
    length (if before xsle x (Fin b) then x :: filter (fun x => before xsle x (Fin b)) l else filter (fun x => before xsle x (Fin b)) l) =
    (length (if before xsle x (Fin a) then x :: filter (fun x => before xsle x (Fin a)) l else filter (fun x => before xsle x (Fin a)) l) +
     (if xr_eq_dec x (Fin q) then S (count_occ xr_eq_dec l (Fin q)) else count_occ xr_eq_dec l (Fin q)))%nat).
  { intros _ _ _ _ E N. rewrite E. destruct (before xsle x (Fin a)), (xr_eq_dec x (Fin q)); simpl; try lia. elim N; auto. }
  simpl. apply (C O O O eq_refl); clear C IH.
  - destruct x as [t| | |]; try (rewrite (before_other _ b a) by discriminate; destruct (xr_eq_dec _ _); [discriminate|rewrite orb_false_r; reflexivity]).
    destruct (xr_eq_dec (Fin t) (Fin q)) as [E|N].
    + injection E as ->. rewrite orb_true_r. apply before_fin'. lra.
    + rewrite orb_false_r. destruct (Rlt_dec t a) as [A|A].
      * rewrite (proj2 (before_fin' t a) A). apply before_fin'. lra.
      * destruct (before xsle (Fin t) (Fin a)) eqn:E; [apply before_fin' in E; lra|]. destruct (before xsle (Fin t) (Fin b)) eqn:F; auto.
        apply before_fin' in F. elim N. f_equal. apply H; [left; auto|lra].
  - intros E ->. apply before_fin' in E. lra.
Qed.
Lemma below_flat : forall l a b, a <= b -> (forall t, In (Fin t) l -> ~ a <= t < b) -> below xsle (Fin b) l = below xsle (Fin a) l.
Proof.
  intros l a b AB H. unfold below. f_equal. apply filter_ext_in. intros [t| | |] I; auto.
  specialize (H t I). destruct (Rlt_dec t a) as [A|A].
  - rewrite (proj2 (before_fin' t a) A). apply before_fin'. lra.
  - destruct (before xsle (Fin t) (Fin a)) eqn:E; [apply before_fin' in E; lra|]. destruct (before xsle (Fin t) (Fin b)) eqn:F; auto.
    apply before_fin' in F. lra.
Qed.

(** ** Counting *)
Section Seen.
  Variable asort : list xr -> list nat.
  Hypothesis AS : argsort_ok asort.
  Variable r : ray.
  Hypothesis W : world_ray r.

  Lemma shape_count : forall s v, v <> PInf ->
    (count_occ xr_eq_dec (fst (shape_intersect asort s r)) v <= count_occ xr_eq_dec (flat_map (fun f => surf_hits f r) (surface_ids s)) v)%nat.
  Proof.
    induction s as [f b|i op b l IHl r0 IHr]; intros v N.
    - cbn [shape_intersect fst surface_ids flat_map]. rewrite app_nil_r. auto.
    - cbn [shape_intersect surface_ids]. rewrite flat_map_app, count_occ_app. destruct (box_hit b r).
      + specialize (IHl v N). specialize (IHr v N). destruct (shape_intersect asort l r) as [lh ls], (shape_intersect asort r0 r) as [rh rs].
        pose proof (combine_count asort AS op lh ls rh rs v N). cbn [fst] in *. lia.
      + cbn [fst]. replace (count_occ xr_eq_dec (repeat PInf _) v) with O; [lia|]. symmetry. apply count_occ_not_In. intro I. apply repeat_spec in I. auto.
  Qed.
  (** Around any parameter: the state changes there exactly if the number of hits is odd *)
  Lemma around : forall s q, tree_ok s -> boxes_current s -> boxes_fit s -> good_ray s r ->
    exists eps, 0 < eps /\ forall a b, q - eps < a < q -> q < b < q + eps ->
      let n := count_occ xr_eq_dec (fst (shape_intersect asort s r)) (Fin q) in
      (n = O -> (inside s (ray_at r a) <-> inside s (ray_at r b))) /\ (n = 1%nat -> (inside s (ray_at r a) <-> ~ inside s (ray_at r b))).
  Proof.
    intros s q T C F G. destruct (shape_inside asort AS s r T C F W G) as (L & H). set (hs := fst (shape_intersect asort s r)) in *.
    destruct (gap (L ++ finites hs) q) as (e & E & K). exists e. split; auto. intros a b A B n.
    assert (D : forall t, q - e < t < q + e -> t <> q -> ~ In t (L ++ finites hs)).
    { intros t I N J. pose proof (K t J N) as X. unfold Rabs in X. destruct (Rcase_abs (t - q)); lra. }
    assert (NA : ~ In a L) by (intro I; apply (D a); try lra; apply in_or_app; auto).
    assert (NB : ~ In b L) by (intro I; apply (D b); try lra; apply in_or_app; auto).
    rewrite <- (H a NA), <- (H b NB). unfold inside_at. rewrite (below_cross hs a q b) by
      (try lra; intros t I X; destruct (Req_dec t q); auto; exfalso; apply (D t); try lra; apply in_or_app; right; apply in_finites; auto).
    fold n. split; intros ->; [rewrite Nat.add_0_r; tauto|]. rewrite Nat.add_1_r, Nat.odd_succ. rewrite <- Nat.negb_odd. destruct (Nat.odd _); simpl; intuition congruence.
  Qed.
  (** Without hits nothing changes *)
  Lemma no_hits_steady : forall s a b, tree_ok s -> boxes_current s -> boxes_fit s -> good_ray s r ->
    (forall t, In (Fin t) (fst (shape_intersect asort s r)) -> ~ a < t < b) -> steady (fun t => inside s (ray_at r t)) a b.
  Proof.
    intros s a b T C F G N. destruct (shape_inside asort AS s r T C F W G) as (L & H). set (hs := fst (shape_intersect asort s r)) in *.
    destruct (Rle_dec b a) as [|AB]; [left; exists []; intros; lra|]. set (m := (a + b) / 2).
    assert (EQ : forall t, a < t < b -> inside_at xsle (Fin t) hs = inside_at xsle (Fin m) hs).
    { intros t X. unfold inside_at. f_equal. destruct (Rle_dec t m).
      - symmetry. apply below_flat; auto. intros u I J. apply (N u I). unfold m in *. lra.
      - apply below_flat; [lra|]. intros u I J. apply (N u I). unfold m in *. lra. }
    destruct (inside_at xsle (Fin m) hs).
    - left. exists L. intros t X J. apply H; auto.
    - right. exists L. intros t X J K. apply H in K; auto. rewrite EQ in K by auto. discriminate.
  Qed.

  (** In any interval there are points outside a finite list *)
  Lemma avoid : forall (L : list R) a b, a < b -> exists t, a < t < b /\ ~ In t L.
  Proof.
    intros L a b AB. destruct (gap L a) as (e & E & H). set (t := a + Rmin e (b - a) / 2).
    assert (X : 0 < Rmin e (b - a)) by (apply Rmin_glb_lt; lra). pose proof (Rmin_l e (b - a)). pose proof (Rmin_r e (b - a)).
    exists t. split; [unfold t; lra|]. intro I. assert (t <> a) by (unfold t; lra). pose proof (H t I H2) as K. unfold t in K. rewrite Rabs_right in K; lra.
  Qed.

  Section Body.
    Variable s : shape.
    Hypothesis SH : sheet s = false.
    Hypothesis V : visible r s.
    Lemma V_ok : tree_ok s /\ boxes_current s /\ boxes_fit s /\ good_ray s r.
    Proof. destruct V as (_ & ?). auto. Qed.
    Lemma body_edges : flat_map (edges r) (surface_ids s) = flat_map (fun f => surf_hits f r) (surface_ids s).
    Proof.
      destruct V as ([B|B] & _); [congruence|]. rewrite !flat_map_concat_map. f_equal. apply map_ext_in. intros f I. unfold edges. rewrite (B f I). reflexivity.
    Qed.
    Lemma body_count : forall t, (count_occ xr_eq_dec (flat_map (edges r) (surface_ids s)) (Fin t) <= 1)%nat ->
      (In (Fin t) (fst (shape_intersect asort s r)) -> count_occ xr_eq_dec (fst (shape_intersect asort s r)) (Fin t) = 1%nat) /\
      (~ In (Fin t) (fst (shape_intersect asort s r)) -> count_occ xr_eq_dec (fst (shape_intersect asort s r)) (Fin t) = O).
    Proof.
      intros t C. rewrite body_edges in C. pose proof (shape_count s (Fin t) ltac:(discriminate)) as D. split; intro I.
      - apply (count_occ_In xr_eq_dec) in I. lia.
      - apply count_occ_not_In. exact I.
    Qed.
    Lemma hit_crosses : forall t, (count_occ xr_eq_dec (flat_map (edges r) (surface_ids s)) (Fin t) <= 1)%nat ->
      (In (Fin t) (fst (shape_intersect asort s r)) <-> crosses (fun u => inside s (ray_at r u)) t).
    Proof.
      intros t C. destruct V_ok as (T & BC & BF & G). destruct (around s t T BC BF G) as (e & E & H). destruct (body_count t C) as (N1 & N0).
      set (P := fun u => inside s (ray_at r u)) in *. split.
      - intro I. specialize (N1 I). pose (a := t - e / 2). pose (b := t + e / 2).
        destruct (Classical_Prop.classic (P a)) as [PA|PA].
        + left. exists e. split; auto. split; intros u U.
          * apply (proj2 (H u b U ltac:(unfold b; lra))); auto. apply (proj2 (H a b ltac:(unfold a; lra) ltac:(unfold b; lra))); auto.
          * intro Q. apply (proj2 (H a u ltac:(unfold a; lra) U)) in PA; auto.
        + right. exists e. split; auto. split; intros u U.
          * intro Q. apply PA. apply (proj2 (H a b ltac:(unfold a; lra) ltac:(unfold b; lra))); auto. apply (proj2 (H u b U ltac:(unfold b; lra))); auto.
          * destruct (Classical_Prop.classic (P u)); auto. exfalso. apply PA. apply (proj2 (H a u ltac:(unfold a; lra) U)); auto.
      - intros X. destruct (in_dec xr_eq_dec (Fin t) (fst (shape_intersect asort s r))) as [|N]; auto. exfalso. specialize (N0 N).
        assert (Y : exists d, 0 < d /\ forall a b, t - d < a < t -> t < b < t + d -> ~ (P a <-> P b)).
        { destruct X as [(d & D & A & B)|(d & D & A & B)]; exists d; split; auto; intros a b Ha Hb K; specialize (A a Ha); specialize (B b Hb); tauto. }
        destruct Y as (d & D & Y). pose proof (Rmin_l d e). pose proof (Rmin_r d e). assert (0 < Rmin d e) by (apply Rmin_glb_lt; auto).
        apply (Y (t - Rmin d e / 2) (t + Rmin d e / 2)); try lra. apply H; auto; lra.
    Qed.
    Lemma crosses_not_steady : forall P t a b, a < t < b -> crosses P t -> ~ steady P a b.
    Proof.
      intros P t a b I X ST.
      assert (Y : exists d, 0 < d /\ forall u v, t - d < u < t -> t < v < t + d -> ~ (P u <-> P v)).
      { destruct X as [(d & D & A & B)|(d & D & A & B)]; exists d; split; auto; intros u v Hu Hv K; specialize (A u Hu); specialize (B v Hv); tauto. }
      destruct Y as (d & D & Y).
      assert (Z : forall L, exists u v, t - d < u < t /\ a < u /\ t < v < t + d /\ v < b /\ ~ In u L /\ ~ In v L).
      { intro L. destruct (avoid L (Rmax (t - d) a) t) as (u & U & NU); [apply Rmax_lub_lt; lra|].
        destruct (avoid L t (Rmin (t + d) b)) as (v & Vv & NV); [apply Rmin_glb_lt; lra|].
        pose proof (Rmax_l (t - d) a). pose proof (Rmax_r (t - d) a). pose proof (Rmin_l (t + d) b). pose proof (Rmin_r (t + d) b).
        exists u, v. repeat split; auto; lra. }
      destruct ST as [(L & M)|(L & M)]; destruct (Z L) as (u & v & U1 & U2 & V1 & V2 & NU & NV); apply (Y u v U1 V1);
        pose proof (M u ltac:(lra) NU); pose proof (M v ltac:(lra) NV); tauto.
    Qed.
    Lemma body_steady : forall q, (forall t, 0 < t <= q -> (count_occ xr_eq_dec (flat_map (edges r) (surface_ids s)) (Fin t) <= 1)%nat) ->
      ((forall t, In (Fin t) (fst (shape_intersect asort s r)) -> 0 < t -> q <= t) <-> steady (fun u => inside s (ray_at r u)) 0 q).
    Proof.
      intros q C. destruct V_ok as (T & BC & BF & G). split.
      - intro H. apply no_hits_steady; auto. intros t I X. specialize (H t I). lra.
      - intros ST t I P. destruct (Rle_dec q t); auto. exfalso. apply (crosses_not_steady _ t 0 q ltac:(lra) (proj1 (hit_crosses t (C t ltac:(lra))) I) ST).
    Qed.
  End Body.

  Lemma sheet_hits : forall s, sheet s = true -> visible r s -> forall t, In (Fin t) (fst (shape_intersect asort s r)) <-> inside s (ray_at r t).
  Proof.
    intros [f b|]; [|discriminate]. intros SH (_ & OK & _ & _ & G) t. simpl in SH, OK, G. cbn [shape_intersect fst inside].
    rewrite placed_local, <- ray_at_map by (auto; apply ray_at_w; auto). rewrite surf_hits_alt.
    pose proof (proj1 OK) as PO. destruct (s_prim f) as [| | | |w l] eqn:EP; try discriminate. destruct G as (CR & VZ). destruct PO as (PW & PL).
    destruct (proj1 (plane_prim_exact w l _ PW PL CR) VZ) as ([(t0 & t1 & E & L & S)|(E & S)] & EQ); rewrite E in *; simpl in EQ.
    - injection EQ as <-. rewrite (S t). unfold sort2. simpl. destruct (rleb t0 t0); simpl; split; intro H.
      + destruct H as [H|[H|[]]]; injection H as ->; lra.
      + left. f_equal. lra.
      + destruct H as [H|[H|[]]]; injection H as ->; lra.
      + left. f_equal. lra.
    - split; [intros [H|[H|[]]]; simpl in H; discriminate|intro H; elim (S t H)].
  Qed.

  Lemma seen_meets : forall s q, visible r s -> (count_occ xr_eq_dec (flat_map (edges r) (surface_ids s)) (Fin q) <= 1)%nat ->
    (In (Fin q) (fst (shape_intersect asort s r)) <-> meets s r q).
  Proof.
    intros s q V C. unfold meets. destruct (sheet s) eqn:E; [apply sheet_hits; auto|]. apply hit_crosses; auto.
  Qed.
  Lemma seen_undisturbed : forall s q, visible r s -> (forall t, 0 < t <= q -> (count_occ xr_eq_dec (flat_map (edges r) (surface_ids s)) (Fin t) <= 1)%nat) ->
    ((forall t, In (Fin t) (fst (shape_intersect asort s r)) -> 0 < t -> q <= t) <-> undisturbed s r q).
  Proof.
    intros s q V C. unfold undisturbed. destruct (sheet s) eqn:E; [|apply body_steady; auto]. split.
    - intros H t T I. apply sheet_hits in I; auto. specialize (H t I). lra.
    - intros H t I P. destruct (Rle_dec q t); auto. exfalso. apply (H t ltac:(lra)), sheet_hits; auto.
  Qed.
End Seen.
