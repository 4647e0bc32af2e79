(** * MotionFacts2: histories and frames of a moved bench *)
From Coq Require Import Reals List Bool ZArith Lra Lia Sorting.Sorted.
Import ListNotations.
From Verif Require Import XR XRFacts Arr Lin LinFacts Ops Prim Csg CsgProps Surf World Tracer SpecTrace SpecOptics SpecMotion MotionFacts
  TraceFacts TraceFacts2 TraceFacts4 TraceFacts5 TraceFacts6 TraceFacts7 TraceFacts8 TraceFacts9 TraceProps.
Open Scope R_scope.

Lemma material_w : forall s c c', material_trace s c = Some c' -> vw (direction (c_ray c)) = 0 ->
  vw (direction (c_ray c')) = 0 /\ origin (c_ray c') = origin (c_ray c).
Proof.
  intros s c c' H D. unfold material_trace in H. destruct (s_mat s) as [| |ix|]; [| | |discriminate].
  - injection H as <-. split; reflexivity.
  - destruct (world_normal s _) as [n|] eqn:E; [|discriminate]. injection H as <-. split; [|reflexivity].
    cbn [c_ray with_direction with_ray direction]. unfold reflect, vsub, vadd, vopp, vscale. cbn [vw].
    rewrite D, (world_normal_w s _ n E). ring.
  - destruct (world_normal s _) as [n|] eqn:E; [|discriminate]. destruct (ix _) as [n2| | |]; try discriminate.
    destruct (refract _ _ _ _ _) as [[d k]|] eqn:F; [|discriminate]. injection H as <-. split; [|reflexivity].
    cbn [c_ray with_direction with_idx with_ray direction]. unfold refract in F.
    destruct (vnormalize (direction (c_ray c))) as [u|] eqn:U; [|discriminate].
    pose proof (normalize_w _ _ D U) as UW. pose proof (world_normal_w s _ n E) as NW.
    destruct (Req_EM_T _ 0); [discriminate|].
    match type of F with context [vnormalize ?x] => destruct (vnormalize x) as [q|] eqn:Q; [|discriminate]; assert (XW : vw x = 0) end.
    { destruct (rltb 0 (1 - _)); unfold vadd, vscale; cbn [vw]; rewrite UW;
      (replace (vw (if rltb 0 (vdot u n) then vopp n else n)) with 0; [ring|]);
      destruct (rltb 0 (vdot u n)); rewrite ?vw_opp, NW; ring. }
    injection F as <- _. exact (normalize_w _ _ XW Q).
Qed.

Section History.
  Variable asort : list xr -> list nat.
  Variables comps comps' : list shape.
  Variable m : mat.
  Hypothesis ISO : isometry m.
  Notation surfaces := (flat_map surface_ids comps).
  Notation surfaces' := (flat_map surface_ids comps').

  (** corresponding shapes give corresponding answers *)
  Definition same_answer (a b : shape) : Prop := forall r, vw (origin r) = 1 -> vw (direction r) = 0 ->
    shape_intersect asort b (ray_map m r) = shape_intersect asort a r.
  Hypothesis ANS : Forall2 same_answer comps comps'.
  Hypothesis SURF : Forall2 (alike m) surfaces surfaces'.

  Lemma reports_moved : forall r, vw (origin r) = 1 -> vw (direction r) = 0 -> forall i k t sid,
    reports asort comps' (ray_map m r) i k t sid <-> reports asort comps r i k t sid.
  Proof.
    intros r O D i k t sid. unfold reports.
    assert (N : forall i, match nth_error comps i, nth_error comps' i with
      | Some a, Some b => same_answer a b | None, None => True | _, _ => False end).
    { clear - ANS. induction ANS as [|a b l l' A F IH]; intros [|i]; cbn; auto. exact (IH F i). }
    specialize (N i). destruct (nth_error comps i) as [a|], (nth_error comps' i) as [b|]; try contradiction.
    - specialize (N r O D). split; intros (s & E & H); injection E as <-; [exists a|exists b]; (split; [reflexivity|]).
      + rewrite N in H. exact H.
      + rewrite N. exact H.
    - split; intros (s & E & _); discriminate.
  Qed.
  Lemma first_hit_moved : forall r, vw (origin r) = 1 -> vw (direction r) = 0 -> forall t sid,
    first_hit asort comps r t sid -> first_hit asort comps' (ray_map m r) t sid.
  Proof.
    intros r O D t sid (i & k & R & F). exists i, k. split; [apply reports_moved; auto|].
    intros i' k' t' sid' R'. apply (F i' k' t' sid'). apply reports_moved; auto.
  Qed.
  Lemma no_hit_moved : forall r, vw (origin r) = 1 -> vw (direction r) = 0 ->
    no_hit asort comps r -> no_hit asort comps' (ray_map m r).
  Proof. intros r O D N i k t sid R. apply (N i k t sid). apply reports_moved; auto. Qed.

  Lemma hat_moved : forall v, vw v = 0 -> hat (mapply m v) = mapply m (hat v).
  Proof. intros v V. unfold hat. rewrite (iso_norm m ISO) by exact V. rewrite mapply_scale. reflexivity. Qed.

  Lemma history_moved : forall limit g c rows, history asort comps surfaces limit g c rows ->
    vw (origin (c_ray c)) = 1 -> vw (direction (c_ray c)) = 0 ->
    history asort comps' surfaces' limit g (carry m c) (map (move_row m) rows).
  Proof.
    intros limit g c rows H. induction H as [g c G L|g c S|g c t sid s c' rows B NS F I E M HI IH]; intros O D; cbn [map].
    - apply History_limit; auto.
    - apply History_stopped. destruct S as [S|S].
      + left. unfold stopped in *. cbn [carry c_ray with_ray ray_map direction]. rewrite (iso_norm m ISO) by exact D. exact S.
      + right. apply no_hit_moved; auto.
    - destruct (In_nth_error _ _ I) as [j J].
      assert (NE : exists s', nth_error surfaces' j = Some s' /\ alike m s s').
      { clear - SURF J. revert j J. induction SURF as [|a b l l' A F IH]; intros [|j] J; cbn in *; try discriminate.
        - injection J as ->. eauto.
        - auto. }
      destruct NE as (s' & J' & AL). apply nth_error_In in J'.
      destruct (material_w s (forward t c) c' M D) as [DW OE].
      assert (OW : vw (origin (c_ray c')) = 1).
      { rewrite OE. cbn [forward c_ray with_ray origin]. unfold vadd, vscale. cbn [vw]. rewrite O, D. ring. }
      assert (M' : material_trace s' (forward t (carry m c)) = Some (carry m c')).
      { rewrite <- carry_forward. rewrite (material_moved m ISO s s') by (auto; cbn [forward c_ray with_ray origin direction];
          unfold vadd, vscale; cbn [vw]; rewrite ?O, ?D; ring). rewrite M. reflexivity. }
      match goal with |- history _ _ _ _ _ _ (?r :: _) =>
        replace r with (Row (c_gen (carry m c)) (c_int (carry m c)) (c_wl (carry m c)) (c_idx (carry m c)) (c_id (carry m c)) sid
           (trim (origin (c_ray (carry m c)))) (trim (origin (c_ray (carry m c')))) (hat (trim (direction (c_ray (carry m c)))))) end.
      + apply (History_hit asort comps' surfaces' limit g (carry m c) t sid s' (carry m c')); auto.
        * unfold stopped in *. cbn [carry c_ray with_ray ray_map direction]. rewrite (iso_norm m ISO) by exact D. exact NS.
        * apply first_hit_moved; auto.
        * destruct AL as (X & _). congruence.
        * change (with_gen (Datatypes.S g) (carry m c')) with (carry m (with_gen (Datatypes.S g) c')). rewrite <- carry_forward.
          apply IH; cbn [forward c_ray with_ray with_gen origin direction]; auto.
          unfold vadd, vscale. cbn [vw]. rewrite OW, DW. ring.
      + unfold move_row. cbn [row_gen row_int row_wl row_idx row_id row_surf row_start row_end row_tilt].
        rewrite !here_trim by auto. rewrite (trim_w0 (direction (c_ray c))) by exact D.
        cbn [carry c_ray c_gen c_int c_wl c_idx c_id with_ray ray_map origin direction].
        rewrite (trim_w0 (mapply m (direction (c_ray c)))) by (rewrite (iso_w m ISO); exact D).
        rewrite hat_moved by exact D. reflexivity.
  Qed.
End History.

Lemma history_unique : forall asort comps surfaces limit g c rows, NoDup (map s_id surfaces) ->
  history asort comps surfaces limit g c rows -> forall rows', history asort comps surfaces limit g c rows' -> rows' = rows.
Proof.
  intros asort comps surfaces limit g c rows ND H.
  induction H as [g c G L|g c S|g c t sid s c' rows B NS F I E M HI IH]; intros rows' H'.
  - inversion H'; subst; auto. exfalso. intuition lia.
  - inversion H'; subst; auto. exfalso. destruct S as [S|S]; [contradiction|].
    match goal with K : first_hit _ _ _ _ _ |- _ => destruct K as (i & k & R & _) end. eapply S; eauto.
  - inversion H' as [? ? G' L'|? ? S'|? ? t1 sid1 s1 c1 rows1 B1 NS1 F1 I1 E1 M1 HI1]; subst.
    + exfalso. intuition lia.
    + exfalso. destruct S' as [S'|S']; [contradiction|]. destruct F as (i & k & R & _). eapply S'; eauto.
    + destruct (first_hit_unique _ _ _ _ _ _ _ F F1) as (<- & EI).
      assert (s1 = s) by (apply (same_surface surfaces); auto). subst s1.
      assert (c1 = c') by congruence. subst c1. f_equal. apply IH; auto.
Qed.

(** two frames agree if they agree ray by ray *)
Lemma frames_alike : forall asort, argsort_ok asort -> forall h gen fuel t t' h' gen' fuel' u u' (f : Tracer.row -> Tracer.row),
  trace asort h gen fuel t = TOk t' -> trace asort h' gen' fuel' u = TOk u' ->
  (forall c, In c (source_rays gen t) -> c_gen c = O) -> (forall c, In c (source_rays gen' u) -> c_gen c = O) ->
  length (source_rays gen t) = length (source_rays gen' u) ->
  (forall w, row_id (f w) = row_id w /\ row_gen (f w) = row_gen w) ->
  (forall i, (i < length (source_rays gen t))%nat ->
     rows_with_id i (f_rows (get_results u')) = map f (rows_with_id i (f_rows (get_results t')))) ->
  f_rows (get_results u') = map f (f_rows (get_results t')).
Proof.
  intros asort AS h gen fuel t t' h' gen' fuel' u u' f T U G0 G0' LEN FF EQ.
  assert (EQ' : forall i, rows_with_id i (f_rows (get_results u')) = map f (rows_with_id i (f_rows (get_results t')))).
  { intro i. destruct (Nat.lt_ge_cases i (length (source_rays gen t))) as [L|L]; [auto|].
    rewrite !rows_with_id_none; auto.
    - intros w W E. destruct (fields_carried _ _ _ _ _ _ T w W) as (c & K & _). rewrite E in K.
      assert (nth_error (source_rays gen t) i <> None) by congruence. apply nth_error_Some in H. lia.
    - intros w W E. destruct (fields_carried _ _ _ _ _ _ U w W) as (c & K & _). rewrite E in K.
      assert (nth_error (source_rays gen' u) i <> None) by congruence. apply nth_error_Some in H. lia. }
  apply sorted_same.
  - eapply frame_in_order; eauto.
  - assert (SS : StronglySorted earlier (f_rows (get_results t'))) by (eapply frame_in_order; eauto).
    clear - SS FF. induction SS as [|w l S IH F]; cbn [map]; constructor; auto.
    rewrite Forall_forall in *. intros w' I. apply in_map_iff in I. destruct I as (v & <- & I).
    specialize (F v I). unfold earlier in *. destruct (FF w) as [-> ->], (FF v) as [-> ->]. exact F.
  - assert (FM : forall i l, rows_with_id i (map f l) = map f (rows_with_id i l)).
    { intros i l. unfold rows_with_id. induction l as [|w l IH]; cbn [map filter]; auto.
      destruct (FF w) as [-> _]. destruct (Nat.eqb (row_id w) i); cbn [map]; congruence. }
    intros w. split; intros W.
    + apply (in_rows_with_id (row_id w)). rewrite FM, <- EQ'. apply in_rows_with_id. auto.
    + apply (in_rows_with_id (row_id w)). rewrite EQ', <- FM. apply in_rows_with_id. auto.
Qed.

Theorem trace_moved : forall asort, argsort_ok asort -> forall m, isometry m ->
  forall h gen fuel t t' comps h' gen' fuel' u u' comps',
  scene h t comps -> scene h' u comps' -> t_limit u = t_limit t ->
  (forall c, In c (source_rays gen t) -> vw (origin (c_ray c)) = 1 /\ vw (direction (c_ray c)) = 0 /\ c_gen c = O) ->
  source_rays gen' u = map (carry m) (source_rays gen t) ->
  Forall2 (same_answer asort m) comps comps' -> Forall2 (alike m) (flat_map surface_ids comps) (flat_map surface_ids comps') ->
  trace asort h gen fuel t = TOk t' -> trace asort h' gen' fuel' u = TOk u' ->
  f_rows (get_results u') = map (move_row m) (f_rows (get_results t')).
Proof.
  intros asort AS m ISO h gen fuel t t' comps h' gen' fuel' u u' comps' SC SU EL OK SR AN AL T U.
  apply (frames_alike asort AS h gen fuel t t' h' gen' fuel' u u' (move_row m) T U).
  - intros c I. apply OK; auto.
  - intros c I. rewrite SR in I. apply in_map_iff in I. destruct I as (c0 & <- & I). apply (OK c0 I).
  - rewrite SR, map_length. reflexivity.
  - intro w. split; reflexivity.
  - intros i L. destruct (nth_error (source_rays gen t) i) as [c|] eqn:N; [|apply nth_error_None in N; lia].
    pose proof (OK c (nth_error_In _ _ N)) as (O & D & _).
    pose proof (scene_histories asort AS _ _ _ _ _ _ T SC i c N) as H.
    assert (N' : nth_error (source_rays gen' u) i = Some (carry m c)) by (rewrite SR, nth_error_map, N; reflexivity).
    pose proof (scene_histories asort AS _ _ _ _ _ _ U SU i _ N') as H'. rewrite EL in H'.
    apply (history_moved asort comps comps' m ISO AN AL) in H; [|exact O|exact D].
    apply (history_unique asort comps' _ (t_limit t) 0 (carry m (with_id i c)) _ (proj2 (proj2 SU)) H). exact H'.
Qed.
