(** * RendererProps: a renderer draws the scene as it stands, however it was used before *)
From Coq Require Import Reals Lra Lia List Bool ZArith.
Import ListNotations.
From Verif Require Import XR XRFacts Arr Lin Prim Csg Surf World SpecWorld WorldFacts Tracer TraceFacts SpecTrace TraceFacts4 TraceFacts8 TraceProps
  Sources Render SpecRender RenderProps Utils Show Renderers SpecShow ShowProps.
Open Scope R_scope.

Section Renderers.
  Variable asort : list xr -> list nat.
  Variable gooch_of : surf -> gooch.

  Lemma run_keeps : forall h c fuel r r', (exists x, run_renderer asort gooch_of h c fuel r = RenderOk x r') \/
    (exists e, run_renderer asort gooch_of h c fuel r = RenderRaises e r') ->
    rn_kind r' = rn_kind r /\ rn_shapes r' = rn_shapes r /\ rn_lut r' = rn_lut r.
  Proof.
    intros h c. induction fuel as [|fuel IH]; intros r r' H.
    - cbn [run_renderer] in H. destruct (rn_state r); destruct H as [[x H]|[x H]]; try discriminate; inversion H; subst; auto.
    - assert (K : forall s, (exists x, match s with RFail e r => RenderRaises e r | RGo r => run_renderer asort gooch_of h c fuel r end = RenderOk x r') \/
        (exists e, match s with RFail e r => RenderRaises e r | RGo r => run_renderer asort gooch_of h c fuel r end = RenderRaises e r') ->
        (forall q, s = RGo q \/ (exists e, s = RFail e q) -> rn_kind q = rn_kind r /\ rn_shapes q = rn_shapes r /\ rn_lut q = rn_lut r) ->
        rn_kind r' = rn_kind r /\ rn_shapes r' = rn_shapes r /\ rn_lut r' = rn_lut r).
      { intros [q|e q] E Q.
        - destruct (IH q r' E) as (-> & -> & ->). apply Q. auto.
        - destruct E as [[x E]|[x E]]; [discriminate|]. inversion E; subst. apply Q. eauto. }
      cbn [run_renderer] in H. destruct (rn_state r) eqn:S.
      + destruct H as [[x H]|[x H]]; [|discriminate]. inversion H; subst. auto.
      + apply (K _ H). intros q [E|[e E]]; unfold rst_initialize in E; destruct (cam_rays c); inversion E; subst; cbn; auto.
      + apply (K _ H). intros q [E|[e E]]; unfold rst_propagate in E; destruct (collect (map (shape_of h) (rn_shapes r))); inversion E; subst; cbn; auto.
      + apply (K _ H). intros q [E|[e E]]; unfold rst_interact in E; cbv zeta in E.
        * destruct (rn_kind r) eqn:KR; [destruct (_ || _)%bool|destruct (collect _)]; inversion E; subst; cbn; auto.
        * destruct (rn_kind r) eqn:KR; [destruct (_ || _)%bool|destruct (collect _)]; inversion E; subst; cbn; auto.
      + apply (K (rst_finish r)); [exact H|]. intros q [E|[e E]]; unfold rst_finish in E; inversion E; subst; cbn; auto.
  Qed.
  Lemma used_keeps : forall r r', used asort gooch_of r r' ->
    rn_kind r' = rn_kind r /\ rn_shapes r' = rn_shapes r /\ rn_lut r' = rn_lut r.
  Proof.
    intros r r' U. induction U as [r|r r' U IH|r r' h c fuel x r'' U IH E|r r' h c fuel x r'' U IH E]; auto.
    - destruct (run_keeps h c fuel (with_state R_INITIALIZE r') r'') as (A & B & C); [left; eauto|].
      cbn in A, B, C. destruct IH as (<- & <- & <-). auto.
    - destruct (run_keeps h c fuel (with_state R_INITIALIZE r') r'') as (A & B & C); [right; eauto|].
      cbn in A, B, C. destruct IH as (<- & <- & <-). auto.
  Qed.

  Lemma combine_map : forall A B (f : A -> B) l, combine l (map f l) = map (fun x => (x, f x)) l.
  Proof. induction l; simpl; congruence. Qed.
  Lemma edge_rows : forall m : list (list bool), map (map (fun e => Some (edge_pixel e))) m = map (map Some) (map (map edge_pixel) m).
  Proof. intros. rewrite map_map. apply map_ext. intros. rewrite map_map. reflexivity. Qed.

  Lemma run_idle : forall h c fuel r, rn_state r = R_IDLE -> run_renderer asort gooch_of h c fuel r = RenderOk (rn_results r) r.
  Proof. intros h c [|fuel] r E; cbn [run_renderer]; rewrite E; auto. Qed.
  (** One call, from any state *)
  Lemma render_picture : forall h c r comps fuel, collect (map (shape_of h) (rn_shapes r)) = Some comps ->
    match rn_kind r with EdgeKind => True | ShadedKind _ => collect (map (entry_of h) (rn_lut r)) = Some (render_lut comps) end ->
    (4 <= fuel)%nat ->
    match picture_of asort gooch_of (rn_kind r) comps c with
    | Some image => exists r', render asort gooch_of h c fuel r = RenderOk (Some image) r' /\ rn_results r' = Some image
    | None => exists r', render asort gooch_of h c fuel r = RenderRaises ValueError r'
    end.
  Proof.
    intros h c r comps fuel C L F. do 4 (destruct fuel as [|fuel]; [lia|]). clear F. destruct r as [kind shapes lut state complete results rays hits].
    cbn [rn_kind rn_shapes rn_lut] in *. unfold render, with_state. cbn [rn_kind rn_shapes rn_lut rn_state rn_complete rn_results rn_rays rn_hits].
    unfold picture_of, edge_image, shaded_image.
    cbn [run_renderer rn_state]. unfold rst_initialize. cbn [reset_renderer rn_kind rn_shapes rn_lut rn_state rn_complete rn_results rn_rays rn_hits].
    destruct (cam_rays c) as [crays|]; [|destruct kind; eexists; reflexivity].
    cbn [run_renderer rn_state]. unfold rst_propagate. cbn [rn_kind rn_shapes rn_lut rn_state rn_complete rn_results rn_rays rn_hits]. rewrite C.
    cbn [run_renderer rn_state]. unfold rst_interact. cbn [rn_kind rn_shapes rn_lut rn_state rn_complete rn_results rn_rays rn_hits]. cbv zeta.
    destruct kind as [|light].
    - destruct ((Z.to_nat (cam_v_pixels c) =? 0) || (cam_h_pixels c =? 0))%nat%bool; [eexists; reflexivity|]. cbn [option_map].
      eexists. rewrite edge_rows, (map_map (render_hit asort comps) snd). cbn [run_renderer rn_state]. unfold rst_finish. rewrite run_idle by reflexivity. split; reflexivity.
    - rewrite L, combine_map, map_map. cbn [fst snd]. eexists. cbn [run_renderer rn_state]. unfold rst_finish. rewrite run_idle by reflexivity. split; reflexivity.
  Qed.

  Lemma render_lut_table : forall comps, render_lut comps = table (flat_map surface_ids comps).
  Proof.
    intros. unfold render_lut, table. induction comps as [|s comps IH]; cbn [flat_map]; auto. rewrite map_app, IH. auto.
  Qed.

  Lemma renderer_draws : forall h0 kind shapes r0 r cs h c comps fuel,
    new_renderer h0 kind shapes = Some r0 -> used asort gooch_of r0 r -> run_catching asort cs h0 = Some h ->
    map (shape_of h) shapes = map Some comps -> (4 <= fuel)%nat ->
    match picture_of asort gooch_of kind comps c with
    | Some image => exists r', render asort gooch_of h c fuel r = RenderOk (Some image) r' /\ rn_results r' = Some image
    | None => exists r', render asort gooch_of h c fuel r = RenderRaises ValueError r'
    end.
  Proof.
    intros h0 kind shapes r0 r cs h c comps fuel N U K M F. destruct (used_keeps _ _ U) as (A & B & D).
    assert (C : collect (map (shape_of h) shapes) = Some comps).
    { rewrite M. clear. induction comps as [|s comps IH]; simpl; auto. rewrite IH. auto. }
    assert (S : rn_kind r0 = kind /\ rn_shapes r0 = shapes).
    { unfold new_renderer in N. destruct kind; [|destruct (collect _); [|discriminate]]; inversion N; auto. }
    destruct S as [S1 S2]. rewrite S1 in A. rewrite S2 in B. rewrite <- A. apply render_picture; auto; [rewrite B; auto|].
    rewrite A. destruct kind as [|light]; auto. unfold new_renderer in N. destruct (collect (map (lut_of h0) shapes)) as [luts|] eqn:E; [|discriminate].
    inversion N; subst r0. cbn [rn_lut] in D. rewrite D, render_lut_table.
    apply run_catching_keeps in K. pose proof (collect_lut_keeps _ _ _ _ K E) as E'.
    apply (table_entries h comps shapes luts C E').
  Qed.
End Renderers.
