(** * MediumFacts: solids around a point of one of their surfaces, and what a ray runs through *)
From Coq Require Import Reals List Bool ZArith Lra Lia Psatz.
Import ListNotations.
From Verif Require Import XR XRFacts Lin LinFacts Prim Csg Surf CsgProps SpecGeom SpecTree SpecNormal SpecOptics TreeFacts SurfFacts World Tracer SpecTrace SpecCrossing Crossing CrossingProps SpecMedium NormalSides.
Open Scope R_scope.

(** ** Trees *)
Lemma signed_surfaces : forall s e, map fst (signed s e) = surface_ids s.
Proof.
  induction s as [f b|i op b l IHl r IHr]; intro e; [reflexivity|]. cbn [signed surface_ids]. destruct op; rewrite map_app, IHl, IHr; reflexivity.
Qed.
Definition fixed (P B : v4 -> Prop) : Prop := (forall y, B y -> P y) \/ (forall y, B y -> ~ P y).
Lemma tree_fixed : forall B s, (forall f, In f (surface_ids s) -> fixed (placed f) B) -> fixed (inside s) B.
Proof.
  induction s as [f b|i op b l IHl r IHr]; intro H.
  - apply H. left. reflexivity.
  - assert (L : fixed (inside l) B) by (apply IHl; intros f I; apply H; cbn [surface_ids]; apply in_or_app; auto).
    assert (R : fixed (inside r) B) by (apply IHr; intros f I; apply H; cbn [surface_ids]; apply in_or_app; auto).
    unfold fixed in *. cbn [inside]. destruct op; destruct L as [L|L], R as [R|R]; 
      first [left; intros y Y; specialize (L y Y); specialize (R y Y); tauto|right; intros y Y; specialize (L y Y); specialize (R y Y); tauto].
Qed.
Lemma nodup_left : forall (T : Type) (a b : list T), NoDup (a ++ b) -> NoDup a.
Proof. induction a as [|x a IH]; intros b N; [constructor|]. cbn in N. inversion N; subst. constructor; [intro J; apply H1; apply in_or_app; auto|apply (IH b); auto]. Qed.
Lemma nodup_rest : forall (T : Type) (a b : list T), NoDup (a ++ b) -> NoDup b.
Proof. induction a as [|x a IH]; intros b N; auto. cbn in N. inversion N; subst. apply IH; auto. Qed.
(** Where all other surfaces are far, the tree is like the one surface or like its complement, or nothing changes *)
Definition like (P Q B : v4 -> Prop) (same : bool) : Prop :=
  forall y, B y -> (Q y -> if same then P y else ~ P y) /\ (~ Q y -> if same then ~ P y else P y).
Lemma tree_like : forall B f s ev e, In (f, e) (signed s ev) -> NoDup (map s_id (surface_ids s)) ->
  (forall g, In g (surface_ids s) -> s_id g <> s_id f -> fixed (placed g) B) ->
  fixed (inside s) B \/ like (inside s) (placed f) B (Bool.eqb e ev).
Proof.
  intros B f. induction s as [g b|i op b l IHl r IHr]; intros ev e I ND H.
  - cbn [signed] in I. destruct I as [E|[]]. injection E as -> ->. right. rewrite eqb_reflx. intros y Y. cbn [inside]. tauto.
  - cbn [surface_ids] in ND, H. rewrite map_app in ND.
    assert (NL : NoDup (map s_id (surface_ids l))) by exact (nodup_left _ _ _ ND).
    assert (NR : NoDup (map s_id (surface_ids r))) by exact (nodup_rest _ _ _ ND).
    assert (HL : forall g, In g (surface_ids l) -> s_id g <> s_id f -> fixed (placed g) B) by (intros g G; apply H; apply in_or_app; auto).
    assert (HR : forall g, In g (surface_ids r) -> s_id g <> s_id f -> fixed (placed g) B) by (intros g G; apply H; apply in_or_app; auto).
    assert (DISJ : forall x y, In x (surface_ids l) -> In y (surface_ids r) -> s_id x <> s_id y).
    { intros x y X Y E. clear - ND X Y E. assert (X' : In (s_id x) (map s_id (surface_ids l))) by (apply in_map; exact X). assert (Y' : In (s_id x) (map s_id (surface_ids r))) by (rewrite E; apply in_map; exact Y).
      revert ND X' Y'. generalize (map s_id (surface_ids l)), (map s_id (surface_ids r)), (s_id x). clear. induction l as [|a l IH]; intros l0 z N X Y; [destruct X|].
      cbn in N. inversion N; subst. destruct X as [-> | X]; [apply H1; apply in_or_app; auto|apply (IH l0 z); auto]. }
    assert (SUB : forall s' e', In (f, e) (signed s' e') -> In f (surface_ids s')) by (intros s' e' J; rewrite <- (signed_surfaces s' e'); apply (in_map fst) in J; exact J).
    assert (K : (exists ev', In (f, e) (signed l ev') /\ ev' = ev /\ fixed (inside r) B) \/ (exists ev', In (f, e) (signed r ev') /\ ev' = (match op with DIFFERENCE => negb ev | _ => ev end) /\ fixed (inside l) B)).
    { assert (J : In (f, e) (signed l ev ++ signed r (match op with DIFFERENCE => negb ev | _ => ev end))) by (destruct op; exact I).
      apply in_app_or in J. destruct J as [J|J].
      - left. exists ev. split; auto. split; auto. apply tree_fixed. intros g G. apply HR; auto. intro E. apply (DISJ f g); auto. apply (SUB _ _ J).
      - right. eexists. split; [exact J|]. split; auto. apply tree_fixed. intros g G. apply HL; auto. intro E. apply (DISJ g f); auto. apply (SUB _ _ J). }
    destruct K as [(ev' & J & -> & R)|(ev' & J & -> & L)].
    + specialize (IHl _ _ J NL HL). clear IHr. unfold fixed, like in *. cbn [inside]. destruct IHl as [[L|L]|L], R as [R|R], op;
        first [left; left; intros y Y; specialize (L y Y); specialize (R y Y); tauto|left; right; intros y Y; specialize (L y Y); specialize (R y Y); tauto
              |right; intros y Y; specialize (L y Y); specialize (R y Y); destruct (Bool.eqb e ev); tauto].
    + specialize (IHr _ _ J NR HR). clear IHl. unfold fixed, like in *. cbn [inside]. destruct IHr as [[R|R]|R], L as [L|L], op;
        first [left; left; intros y Y; specialize (L y Y); specialize (R y Y); tauto|left; right; intros y Y; specialize (L y Y); specialize (R y Y); tauto
              |right; intros y Y; specialize (L y Y); specialize (R y Y); destruct e, ev; cbn [Bool.eqb negb] in *; tauto].
Qed.
Lemma soon_ball : forall x d eps, vw x = 1 -> unit d -> vw d = 0 -> forall t, Rabs t < eps -> vw (ray_at (Ray x d) t) = 1 /\ vnorm (vsub (ray_at (Ray x d) t) x) < eps.
Proof.
  intros x d eps W U D t T. split; [unfold ray_at; cbn [origin direction vw]; rewrite W, D; ring|].
  assert (WR : world_ray (Ray x d)).
  { split; auto. split; auto. intros (A & B & C). cbn [direction] in A, B, C. unfold unit, vdot in U. rewrite A, B, C, D in U. lra. }
  pose proof (ray_distance (Ray x d) t WR) as E. cbn [origin direction] in E. rewrite E; auto. unfold vnorm. rewrite U. apply sqrt_1.
Qed.

(** ** Along a ray *)
Lemma medium_same : forall comps wl x y n, (forall s g, In s comps -> of_glass s g -> (inside s x <-> inside s y)) -> medium comps wl x n -> medium comps wl y n.
Proof.
  intros comps wl x y n H [(s & g & I & G & X & E)|(N & ->)].
  - left. exists s, g. repeat (split; auto). apply (H s g I G). exact X.
  - right. split; auto. intros s g I G Y. apply (N s g I G). apply (H s g I G). exact Y.
Qed.
Lemma of_glass_same : forall s g g', surface_ids s <> [] -> of_glass s g -> of_glass s g' -> g = g'.
Proof.
  intros s g g' NE (_ & M) (_ & M'). destruct (surface_ids s) as [|f l] eqn:E; [contradiction|]. specialize (M f). specialize (M' f). rewrite E in M, M'. 
  rewrite M in M' by (left; reflexivity). specialize (M' (or_introl eq_refl)). congruence.
Qed.
Lemma has_surface : forall s, surface_ids s <> [].
Proof. induction s as [f b|i op b l IHl r IHr]; cbn [surface_ids]; [discriminate|]. intro H. apply app_eq_nil in H. tauto. Qed.
Lemma medium_unique : forall comps wl x n n', bench comps -> medium comps wl x n -> medium comps wl x n' -> n = n'.
Proof.
  intros comps wl x n n' (_ & B) [(s & g & I & G & X & E)|(N & ->)] [(s' & g' & I' & G' & X' & E')|(N' & ->)].
  - assert (s = s') by (apply (B s s' g g' x); auto). subst s'. assert (g = g') by (apply (of_glass_same s); auto; apply has_surface). subst g'. congruence.
  - exfalso. apply (N' s g); auto.
  - exfalso. apply (N s' g'); auto.
  - reflexivity.
Qed.
(** Where nothing is entered or left the medium stays the same *)
Lemma steady_alike : forall comps r a b, (forall s, In s comps -> sheet s = false -> steady (fun t => inside s (ray_at r t)) a b) ->
  exists L, forall t t', a < t < b -> a < t' < b -> ~ In t L -> ~ In t' L -> forall s, In s comps -> sheet s = false -> (inside s (ray_at r t) <-> inside s (ray_at r t')).
Proof.
  induction comps as [|s comps IH]; intros r a b H.
  - exists []. intros t t' _ _ _ _ s [].
  - destruct (IH r a b) as (L & K); [intros s' I; apply H; right; exact I|].
    destruct (sheet s) eqn:SH.
    + exists L. intros t t' T T' N N' s' [<- | I] S'; [congruence|]. apply K; auto.
    + destruct (H s (or_introl eq_refl) SH) as [(L' & K')|(L' & K')]; exists (L ++ L'); intros t t' T T' N N' s' [<- | I] S';
        try (apply K; auto; intro J; first [apply N; apply in_or_app; left; exact J|apply N'; apply in_or_app; left; exact J]).
      * split; intros _; apply K'; auto; intro J; first [apply N'; apply in_or_app; right; exact J|apply N; apply in_or_app; right; exact J].
      * split; intro J; exfalso; revert J; apply K'; auto; intro J; first [apply N'; apply in_or_app; right; exact J|apply N; apply in_or_app; right; exact J].
Qed.
Lemma medium_steady : forall comps wl r n a b e, (forall s, In s comps -> sheet s = false -> steady (fun t => inside s (ray_at r t)) a b) ->
  a < e -> a < b -> (forall t, a < t < e -> medium comps wl (ray_at r t) n) -> mostly (fun t => medium comps wl (ray_at r t) n) a b.
Proof.
  intros comps wl r n a b e ST E AB H. destruct (steady_alike comps r a b ST) as (L & K).
  assert (M : a < Rmin e b) by (apply Rmin_glb_lt; auto). destruct (avoid L a (Rmin e b) M) as (t0 & T0 & N0).
  pose proof (Rmin_l e b). pose proof (Rmin_r e b).
  exists L. intros t T N. apply (medium_same comps wl (ray_at r t0)); [|apply H; lra]. intros s g I (S & _). apply K; auto. lra.
Qed.
(** Two stretches that overlap make one *)
Lemma steady_join : forall P a b c d, a <= b -> b < c -> b < d -> steady P a c -> steady P b d -> steady P a d.
Proof.
  intros P a b c d AB BC BD S1 S2.
  assert (X : b < Rmin c d) by (apply Rmin_glb_lt; auto). pose proof (Rmin_l c d). pose proof (Rmin_r c d).
  destruct S1 as [(L & H1)|(L & H1)], S2 as [(L' & H2)|(L' & H2)].
  1: left. 4: right.
  1,4: exists (b :: L ++ L'); intros t T N; destruct (Rlt_dec t b) as [Y|Y]; [apply H1; [lra|intro J; apply N; right; apply in_or_app; auto]|].
  1,2: assert (t <> b) by (intro; subst; apply N; left; reflexivity); apply H2; [lra|intro J; apply N; right; apply in_or_app; auto].
  all: exfalso; destruct (avoid (L ++ L') b (Rmin c d) X) as (t & T & N); assert (N1 : ~ In t L) by (intro J; apply N; apply in_or_app; auto);
    assert (N2 : ~ In t L') by (intro J; apply N; apply in_or_app; auto); specialize (H1 t ltac:(lra) N1); specialize (H2 t ltac:(lra) N2); contradiction.
Qed.
Lemma steady_shift : forall P a b k, steady (fun t => P (k + t)) a b -> steady P (k + a) (k + b).
Proof.
  intros P a b k [(L & H)|(L & H)]; [left|right]; exists (map (fun t => k + t) L); intros t T N; (replace t with (k + (t - k)) by ring);
    apply H; try lra; intro J; apply N; apply in_map_iff; exists (t - k); split; auto; ring.
Qed.
