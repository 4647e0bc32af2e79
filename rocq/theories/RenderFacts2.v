(** * RenderFacts2: facts about the hits of a pixel and about shading *)
From Coq Require Import Reals List Bool ZArith Lra Lia Psatz Sorted.
Import ListNotations.
From Verif Require Import XR XRFacts Arr ArrFacts Lin LinFacts Prim Csg SpecCsg CsgProps Surf World Tracer Sources SpecGeom SpecTree TreeFacts SpecTrace TraceFacts3 SpecOptics Render SpecRender.
Open Scope R_scope.

Section Hits.
  Variable asort : list xr -> list nat.
  Hypothesis AS : argsort_ok asort.

  (** *** Nothing behind the camera: as the ray tracer *)
  Lemma render_shape_same : forall r best s, nothing_behind asort [s] r ->
    render_shape asort r best s = propagate_shape asort r best s.
  Proof.
    intros r best s NB. specialize (NB s (or_introl eq_refl)). unfold render_shape, propagate_shape.
    pose proof (shape_nearest asort AS s r) as SN. cbv zeta in SN.
    destruct (shape_intersect asort s r) as [hs ids]. cbn [fst snd] in *.
    destruct SN as [(-> & NP)|(t & sid & -> & -> & T & HK & IK & _)].
    - replace (xltb PInf (fst best)) with false by (destruct (fst best); auto).
      destruct NB as [(t & I & T)|NB].
      + apply In_nth_error in I. destruct I as [j J]. specialize (NP _ _ J). lra.
      + destruct (nth_in_or_default (argmin (map positive_or_inf hs)) hs PInf) as [I|E].
        * destruct (NB _ I) as [->| ->]; destruct (fst best); auto.
        * rewrite E. destruct (fst best); auto.
    - rewrite (nth_error_nth hs _ PInf HK). auto.
  Qed.
  Lemma render_same : forall shapes c, nothing_behind asort shapes (c_ray c) ->
    render_hit asort shapes (c_ray c) = propagate asort shapes c.
  Proof.
    intros shapes c. unfold render_hit, propagate. generalize (PInf, (-1)%Z). induction shapes as [|s shapes IH]; intros best NB; auto.
    cbn [fold_left]. rewrite render_shape_same by (intros x [->|[]]; apply NB; simpl; auto).
    apply IH. intros x X. apply NB. simpl; auto.
  Qed.

  (** *** Everything behind the camera: the least hit *)
  Definition all_behind (shapes : list shape) (r : ray) : Prop :=
    forall s x, In s shapes -> In x (fst (shape_intersect asort s r)) -> x = PInf \/ x = NaN \/ exists t, x = Fin t /\ t <= 0.
  Lemma argmin_all_inf : forall xs, (forall x, In x xs -> x = PInf) -> argmin xs = O.
  Proof.
    intros [|x xs] H; auto. simpl. rewrite (H x) by (simpl; auto).
    assert (G : forall xs i, (forall x, In x xs -> x = PInf) -> argmin_from PInf 0 i xs = O).
    { induction xs0 as [|y ys IH]; intros i K; simpl; auto. rewrite (K y) by (simpl; auto). simpl. apply IH. simpl in K; auto. }
    apply G. simpl in H; auto.
  Qed.
  Lemma render_shape_behind : forall r best s, all_behind [s] r ->
    exists hs ids, shape_intersect asort s r = (hs, ids) /\
    render_shape asort r best s = if xltb (nth 0 hs PInf) (fst best) then (nth 0 hs PInf, nth 0 ids (-1)%Z) else best.
  Proof.
    intros r best s AB. specialize (AB s). unfold render_shape. destruct (shape_intersect asort s r) as [hs ids].
    cbn [fst] in AB. exists hs, ids. split; auto. rewrite argmin_all_inf; auto.
    intros x X. apply in_map_iff in X. destruct X as (y & <- & Y). destruct (AB y (or_introl eq_refl) Y) as [->|[->|(t & -> & T)]]; auto.
    unfold positive_or_inf. simpl. assert (E : rltb 0 t = false) by (apply rltb_false; auto). rewrite E. auto.
  Qed.

  Theorem render_lowest : forall shapes r, all_behind shapes r ->
    (render_hit asort shapes r = (PInf, (-1)%Z) /\ forall t sid, ~ on_line asort shapes r t sid) \/
    (exists t sid, render_hit asort shapes r = (Fin t, sid) /\ lowest_on_line asort shapes r t sid).
  Proof.
    intros shapes r. induction shapes as [|s shapes IH] using rev_ind; intros AB.
    - left. split; auto. intros t sid (s & [] & _).
    - assert (AB1 : all_behind shapes r) by (intros x y X; apply AB; apply in_or_app; auto).
      assert (AB2 : all_behind [s] r) by (intros x y X; apply AB; apply in_or_app; auto).
      specialize (IH AB1). unfold render_hit. rewrite fold_left_app. cbn [fold_left].
      fold (render_hit asort shapes r).
      destruct (render_shape_behind r (render_hit asort shapes r) s AB2) as (hs & ids & SI & ->).
      destruct (shape_columns asort AS s r) as (SO & L1 & L2). pose proof (shape_rows_pos s) as P.
      rewrite SI in *. cbn [fst snd] in *.
      assert (ON : forall t sid, on_line asort (shapes ++ [s]) r t sid <-> on_line asort shapes r t sid \/ In (Fin t, sid) (combine hs ids)).
      { intros t sid. unfold on_line. split.
        - intros (x & X & Y). apply in_app_or in X. destruct X as [X|[->|[]]]; [left; eauto|right]. rewrite SI in Y. auto.
        - intros [(x & X & Y)|Y]; [exists x; split; auto; apply in_or_app; auto|]. exists s. split; [apply in_or_app; simpl; auto|]. rewrite SI. auto. }
      destruct hs as [|h hs]; [simpl in L1; lia|]. destruct ids as [|id ids]; [simpl in L2; lia|]. cbn [nth].
      assert (LEAST : forall t sid, In (Fin t, sid) (combine (h :: hs) (id :: ids)) -> xsle h (Fin t) = true).
      { intros t sid I. apply in_combine_l in I. destruct I as [->|I]; [apply xsle_refl|].
        inversion SO; subst. rewrite Forall_forall in H2. auto. }
      assert (H0 : h = PInf \/ h = NaN \/ exists t, h = Fin t /\ t <= 0).
      { apply (AB2 s); [simpl; auto|]. rewrite SI. simpl; auto. }
      assert (NONE : h = PInf \/ h = NaN -> forall t sid, ~ In (Fin t, sid) (combine (h :: hs) (id :: ids))).
      { intros [->| ->] t sid I; apply LEAST in I; discriminate. }
      destruct H0 as [E|[E|(t0 & E & T0)]].
      + specialize (NONE (or_introl E)). subst h. replace (xltb PInf (fst (render_hit asort shapes r))) with false by (destruct (fst (render_hit asort shapes r)); auto).
        destruct IH as [(-> & NH)|(t & sid & -> & O1 & O2)]; [left|right].
        * split; auto. intros t sid O. apply ON in O. destruct O as [O|O]; [eapply NH; eauto|eapply NONE; eauto].
        * exists t, sid. split; auto. split; [apply ON; auto|]. intros t' sid' O. apply ON in O. destruct O as [O|O]; [eauto|elim (NONE _ _ O)].
      + specialize (NONE (or_intror E)). subst h. replace (xltb NaN (fst (render_hit asort shapes r))) with false by (destruct (fst (render_hit asort shapes r)); auto).
        destruct IH as [(-> & NH)|(t & sid & -> & O1 & O2)]; [left|right].
        * split; auto. intros t sid O. apply ON in O. destruct O as [O|O]; [eapply NH; eauto|eapply NONE; eauto].
        * exists t, sid. split; auto. split; [apply ON; auto|]. intros t' sid' O. apply ON in O. destruct O as [O|O]; [eauto|elim (NONE _ _ O)].
      + subst h. assert (L0 : forall t sid, In (Fin t, sid) (combine (Fin t0 :: hs) (id :: ids)) -> t0 <= t).
        { intros t sid I. apply LEAST in I. simpl in I. apply rleb_true in I. auto. }
        assert (O0 : on_line asort (shapes ++ [s]) r t0 id) by (apply ON; right; simpl; auto).
        right. destruct IH as [(-> & NH)|(t & sid & -> & O1 & O2)]; cbn [fst xltb].
        * exists t0, id. split; auto. split; auto. intros t' sid' O. apply ON in O. destruct O as [O|O]; [elim (NH _ _ O)|eauto].
        * destruct (rltb t0 t) eqn:LT.
          { apply rltb_true in LT. exists t0, id. split; auto. split; auto. intros t' sid' O. apply ON in O.
            destruct O as [O|O]; [apply O2 in O; lra|eauto]. }
          { apply rltb_false in LT. exists t, sid. split; auto. split; [apply ON; auto|]. intros t' sid' O. apply ON in O.
            destruct O as [O|O]; [eauto|]. apply L0 in O. lra. }
  Qed.
End Hits.

(** ** Shading *)
Lemma mix_unit : forall k a b, in_unit k -> in_unit a -> in_unit b -> in_unit (k * a + (1 - k) * b).
Proof. unfold in_unit. intros k a b K A B. split; [|nra]. apply Rplus_le_le_0_compat; apply Rmult_le_pos; lra. Qed.
Lemma mixed_displayable : forall k a b, in_unit k -> displayable a -> displayable b -> displayable (mixed k a b).
Proof. intros k a b K (A1 & A2 & A3 & A4) (B1 & B2 & B3 & B4). unfold displayable, mixed; cbn. repeat split; apply mix_unit; auto. Qed.
Lemma mixed_opaque : forall k a b, opaque a -> opaque b -> opaque (mixed k a b).
Proof. unfold opaque, mixed. intros k a b A B. cbn. rewrite A, B. ring. Qed.

Lemma cauchy3 : forall a b c x y z, (a * x + b * y + c * z) * (a * x + b * y + c * z) <= (a * a + b * b + c * c) * (x * x + y * y + z * z).
Proof.
  intros. assert (0 <= (a * y - b * x) * (a * y - b * x) + (b * z - c * y) * (b * z - c * y) + (a * z - c * x) * (a * z - c * x)).
  { repeat apply Rplus_le_le_0_compat; apply Rle_0_sqr. }
  lra.
Qed.
Lemma square_le_1 : forall x, x * x <= 1 -> -1 <= x <= 1.
Proof. intros x H. split; nra. Qed.

Theorem gooch_mixture : forall light p n m,
  vx n * vx n + vy n * vy n + vz n * vz n <= 1 -> light_mixture light p n = Some m ->
  let d := V4 (vx light - vx p) (vy light - vy p) (vz light - vz p) 0 in
  in_unit m /\ (2 * m - 1) * vnorm d = vx d * vx n + vy d * vy n + vz d * vz n.
Proof.
  intros light p n m N M d. unfold light_mixture in M. fold d in M.
  destruct (vnormalize d) as [l|] eqn:E; [|discriminate]. apply vnormalize_some in E.
  assert (MM : m = 5 / 10 * (1 + (vx l * vx n + vy l * vy n + vz l * vz n))) by congruence. clear M.
  destruct E as (L & U & P).
  assert (C : (vx l * vx n + vy l * vy n + vz l * vz n) * (vx l * vx n + vy l * vy n + vz l * vz n) <= 1).
  { eapply Rle_trans; [apply cauchy3|]. assert (W : vw l = 0) by (rewrite L; unfold vscale, d; cbn; ring).
    unfold vdot in U. rewrite W in U. replace (vx l * vx l + vy l * vy l + vz l * vz l) with 1 by lra. lra. }
  apply square_le_1 in C. split; [unfold in_unit; lra|].
  assert (S : forall x, / vnorm d * x * vnorm d = x) by (intro; field; lra).
  assert (LX : vx d = vx l * vnorm d) by (rewrite L; unfold vscale; cbn [vx]; rewrite S; auto).
  assert (LY : vy d = vy l * vnorm d) by (rewrite L; unfold vscale; cbn [vy]; rewrite S; auto).
  assert (LZ : vz d = vz l * vnorm d) by (rewrite L; unfold vscale; cbn [vz]; rewrite S; auto).
  rewrite LX, LY, LZ, MM. field.
Qed.
Lemma shade_warm_mixed : forall g, shade_warm g = mixed (g_alpha g) (g_base g) (g_warm g).
Proof. intros. unfold shade_warm, mixed, rgba_add, rgba_scale; cbn. f_equal; ring. Qed.
Lemma shade_cool_mixed : forall g, shade_cool g = mixed (g_beta g) (g_base g) (g_cool g).
Proof. intros. unfold shade_cool, mixed, rgba_add, rgba_scale; cbn. f_equal; ring. Qed.
Lemma light_mixture_some : forall light p n, (vx light, vy light, vz light) <> (vx p, vy p, vz p) -> exists m, light_mixture light p n = Some m.
Proof.
  intros light p n H. unfold light_mixture.
  destruct (vnormalize_nonzero (V4 (vx light - vx p) (vy light - vy p) (vz light - vz p) 0)) as [u ->]; eauto.
  intros E. inversion E. apply H. f_equal; [f_equal|]; lra.
Qed.

(** ** The pixels of the shaded image *)
Lemma shade_pixel_none : forall gooch_of light lut r hit px,
  (forall e, In e lut -> fst e <> snd hit) ->
  fold_left (fun px (e : Z * surf) => if (snd hit =? fst e)%Z then surf_shade gooch_of light (snd e) r (fst hit) else px) lut px = px.
Proof.
  induction lut as [|e lut IH]; intros r hit px H; auto. cbn [fold_left].
  destruct (Z.eqb_spec (snd hit) (fst e)) as [E|_]; [elim (H e); simpl; auto|]. apply IH. intros x X. apply H. simpl; auto.
Qed.
Lemma shade_pixel_last : forall gooch_of light lut r hit px s,
  In (snd hit, s) lut -> (forall s', In (snd hit, s') lut -> s' = s) ->
  fold_left (fun px (e : Z * surf) => if (snd hit =? fst e)%Z then surf_shade gooch_of light (snd e) r (fst hit) else px) lut px =
  surf_shade gooch_of light s r (fst hit).
Proof.
  induction lut as [|[i f] lut IH]; intros r hit px s I U; [destruct I|]. cbn [fold_left fst snd].
  destruct (in_dec Z.eq_dec (snd hit) (map fst lut)) as [J|J].
  - apply in_map_iff in J. destruct J as ([i' f'] & E & J). cbn [fst] in E. subst i'.
    assert (f' = s) by (apply U; simpl; auto). subst. apply IH; auto. intros s' S. apply U. simpl; auto.
  - rewrite shade_pixel_none.
    + destruct I as [I|I].
      * inversion I; subst. rewrite Z.eqb_refl. auto.
      * elim J. apply in_map_iff. exists (snd hit, s). auto.
    + intros e E X. apply J. rewrite <- X. apply in_map. auto.
Qed.
