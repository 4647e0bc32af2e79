(** * Property C65, exactly: what every pixel shows *)
From Coq Require Import Reals List Bool ZArith Lra Lia.
Import ListNotations.
From Verif Require Import XR XRFacts Arr Lin LinFacts Prim Csg CsgProps Surf World Tracer SpecTrace ComponentFacts Render SpecRender RenderFacts RenderFacts2 RenderProps RenderExamples
  SpecPixel PixelFacts.
Open Scope R_scope.

(** A pixel shows the least of the distances the components put forward (the earlier
    component wins ties), wherever they are, and nothing if none puts a hit forward. *)
Theorem C65_every_pixel_exactly : forall asort, argsort_ok asort -> forall shapes r,
  (render_hit asort shapes r = (PInf, (-1)%Z) /\
     forall s x sid, In s shapes -> puts_forward asort s r x sid -> x = PInf \/ x = NaN) \/
  (exists before s after x sid, shapes = before ++ s :: after /\ puts_forward asort s r x sid /\
     render_hit asort shapes r = (x, sid) /\ xltb x PInf = true /\
     (forall s' y sid', In s' before -> puts_forward asort s' r y sid' -> y = NaN \/ xltb x y = true) /\
     (forall s' y sid', In s' after -> puts_forward asort s' r y sid' -> y = NaN \/ xleb x y = true)).
Proof. exact pixel_exactly. Qed.
Print Assumptions C65_every_pixel_exactly.

(** Every component puts forward one thing. *)
Theorem C65_what_is_put_forward : forall asort, argsort_ok asort -> forall s r,
  exists x sid, puts_forward asort s r x sid /\ forall y sid', puts_forward asort s r y sid' -> y = x /\ sid' = sid.
Proof.
  intros asort AS s r. destruct (forward_of asort AS s r) as (x & sid & P & _). exists x, sid. split; auto.
  intros y sid' Q. destruct (forward_unique asort _ _ _ _ _ _ P Q). auto.
Qed.
Print Assumptions C65_what_is_put_forward.

(** So the pixel is right exactly if no component answers with hits behind the camera alone. *)
Theorem C65_right_exactly_when : forall asort, argsort_ok asort -> forall shapes r,
  ((render_hit asort shapes r = (PInf, (-1)%Z) /\ no_hit asort shapes r) \/
   (exists t sid, render_hit asort shapes r = (Fin t, sid) /\ first_hit asort shapes r t sid)) <-> none_behind asort shapes r.
Proof. exact pixel_right_when. Qed.
Print Assumptions C65_right_exactly_when.

(** Both happen: a ball in front of the camera, and one more behind it. *)
Example C65_both_occur : forall asort, argsort_ok asort ->
  none_behind asort [ball 3 5 0 0] ahead_ray /\ ~ none_behind asort [ball 3 5 0 0; ball 7 (-5) 0 0] ahead_ray.
Proof.
  intros asort AS. split.
  - apply (pixel_right_when asort AS). apply pixel_first_hit; auto. apply ahead_nothing_behind.
  - intro NB. apply (pixel_right_when asort AS) in NB. rewrite render_ball_hidden in NB by auto.
    destruct NB as [(E & _)|(t & sid & E & F)]; [discriminate|]. injection E as <- <-. apply TraceFacts3.first_hit_pos in F. lra.
Qed.
