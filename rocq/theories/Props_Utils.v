(** * Props_Utils: properties C61-C63, colours, focal lengths and glasses *)
From Coq Require Import Reals Lra List Bool.
Import ListNotations.
From Verif Require Import XR Surf SpecTrace Utils SpecUtils UtilProps UtilProps2.
Open Scope R_scope.

(** ** C61 *)
(** Every array of wavelengths is answered, column by column, by one function of the
    wavelength, whatever the new array contained before.  The function stays in [0,1]^3,
    is continuous over all real wavelengths, is constant beyond both limits, runs through
    the named colours, and with gamma 1 goes straight from each to the next. *)
Theorem C61_colours_are_total_bounded_and_continuous_partial : exists colour : R -> R -> rgb, forall g, 0 < g ->
  (forall junk l, wavelength_to_rgb junk (Array l) g = Some (map (colour g) l)) /\
  (forall w, displayable (colour g w)) /\ continuous_colour (colour g) /\
  (forall w, w <= 38/100 -> colour g w = colour g (38/100)) /\
  (forall w, 75/100 <= w -> colour g w = colour g (75/100)) /\
  (forall w c, In (w, c) anchors -> colour g w = c) /\
  (forall k a ca b cb s, nth_error anchors k = Some (a, ca) -> nth_error anchors (S k) = Some (b, cb) ->
     0 <= s <= 1 -> g = 1 -> colour g ((1 - s) * a + s * b) = mix s ca cb).
Proof. exact colour_map. Qed.
Print Assumptions C61_colours_are_total_bounded_and_continuous_partial.
Example C61_hypotheses : 0 < 8/10 /\ nth_error anchors 1 = Some (49/100, RGB 0 1 1) /\ nth_error anchors 2 = Some (51/100, RGB 0 1 0).
Proof. split; [lra|]. split; reflexivity. Qed.

(** Different visible wavelengths get different colours, whatever the gamma. *)
Theorem C61_colours_tell_visible_wavelengths_apart : forall g junk junk' l l', 0 < g ->
  Forall visible l -> Forall visible l' ->
  wavelength_to_rgb junk (Array l) g = wavelength_to_rgb junk' (Array l') g -> l = l'.
Proof. exact colours_tell_wavelengths. Qed.
Print Assumptions C61_colours_tell_visible_wavelengths_apart.
Example C61_visible_case : Forall visible [45/100; 55/100; 65/100].
Proof. repeat constructor; lra. Qed.

(** Missing: a single number, which the signature allows, raises IndexError. *)
Theorem C61_single_wavelength_refuted : forall junk w g, wavelength_to_rgb junk (Scalar w) g = None.
Proof. reflexivity. Qed.
Print Assumptions C61_single_wavelength_refuted.

(** ** C62 *)
(** The result is the focal length of the lens in paraxial optics: the matrix of the lens
    has lower left entry -1/f.  A lens without power has no focal length and raises. *)
Theorem C62_focal_length_of_the_thick_lens : forall r1 r2 n d k1 k2, curvature r1 k1 -> curvature r2 k2 -> n <> 0 ->
  (mC (lens_matrix k1 k2 n d) <> 0 ->
     exists f, lensmakers_equation r1 r2 (Fin n) (Fin d) = Some (Fin f) /\ f * mC (lens_matrix k1 k2 n d) = -1) /\
  (mC (lens_matrix k1 k2 n d) = 0 -> lensmakers_equation r1 r2 (Fin n) (Fin d) = None).
Proof. exact lensmaker_paraxial. Qed.
Print Assumptions C62_focal_length_of_the_thick_lens.

(** Turning the lens round keeps its focal length. *)
Theorem C62_turned_lens : forall r1 r2 n d k1 k2, curvature r1 k1 -> curvature r2 k2 -> n <> 0 ->
  lensmakers_equation (xopp r2) (xopp r1) (Fin n) (Fin d) = lensmakers_equation r1 r2 (Fin n) (Fin d).
Proof. exact lensmaker_turned. Qed.
Print Assumptions C62_turned_lens.

(** A plano lens: r / (n - 1), whatever the thickness *)
Theorem C62_plano_lens : forall r n d, r <> 0 -> n <> 0 -> n <> 1 ->
  lensmakers_equation (Fin r) PInf (Fin n) (Fin d) = Some (Fin (r / (n - 1))).
Proof. exact lensmaker_plano. Qed.
Print Assumptions C62_plano_lens.
(** A biconvex lens of radii 10 and thickness 1 has positive power. *)
Example C62_hypotheses : curvature (Fin 10) (1/10) /\ curvature (Fin (-10)) (- (1/10)) /\ curvature PInf 0 /\
  mC (lens_matrix (1/10) (- (1/10)) (3/2) 1) <> 0.
Proof.
  unfold curvature. split; [split; [lra|field]|]. split; [split; [lra|field]|]. split; [reflexivity|].
  unfold lens_matrix, cross, travel, m2_mul; simpl. apply Rlt_not_eq. lra.
Qed.

(** ** C63 *)
(** An index returned by a Sellmeier glass solves the Sellmeier equation. *)
Theorem C63_sellmeier_equation : forall s w, w * w <> c1 s -> w * w <> c2 s -> w * w <> c3 s ->
  forall n, sellmeier_index s w = Fin n ->
  0 <= n /\ n * n = 1 + b1 s * (w * w) / (w * w - c1 s) + b2 s * (w * w) / (w * w - c2 s) + b3 s * (w * w) / (w * w - c3 s).
Proof. exact sellmeier_law. Qed.
Print Assumptions C63_sellmeier_equation.

(** Every glass of the catalogue answers every visible wavelength with an index above 1;
    in the dispersive ones it falls as the wavelength grows, and their Abbe number is positive. *)
Theorem C63_catalogue_index_above_one : forall g w, visible w -> exists n, glass g w = Fin n /\ 1 < n.
Proof. exact catalogue_visible. Qed.
Print Assumptions C63_catalogue_index_above_one.
Theorem C63_catalogue_normal_dispersion : forall g w w' n n', g <> Ideal -> visible w -> visible w' -> w < w' ->
  glass g w = Fin n -> glass g w' = Fin n' -> n' < n.
Proof. exact normal_dispersion. Qed.
Print Assumptions C63_catalogue_normal_dispersion.
Theorem C63_catalogue_abbe_number : forall g, g <> Ideal -> exists nd nf nc,
  glass g (5893/10000) = Fin nd /\ glass g (4861/10000) = Fin nf /\ glass g (6563/10000) = Fin nc /\
  nc < nf /\ abbe (glass g) = Fin ((nd - 1) / (nf - nc)).
Proof. exact abbe_number. Qed.
Print Assumptions C63_catalogue_abbe_number.

(** A glass of constant index, and what the tracer asks of a material (C74) *)
Theorem C63_constant_index : forall n w w', basic_index n w = Fin n /\ basic_index n w = basic_index n w'.
Proof. split; reflexivity. Qed.
Print Assumptions C63_constant_index.
Theorem C63_catalogue_glasses_can_be_traced : forall g, optical visible (glass_material g).
Proof. exact catalogue_optical. Qed.
Print Assumptions C63_catalogue_glasses_can_be_traced.
(** The wavelength 0.633 is visible, and BK7 then has an index to which the equation applies. *)
Example C63_hypotheses : visible (633/1000) /\ visible (5/10) /\ BK7 <> Ideal /\
  exists n, sellmeier_index bk7 (633/1000) = Fin n /\
    633/1000 * (633/1000) <> c1 bk7 /\ 633/1000 * (633/1000) <> c2 bk7 /\ 633/1000 * (633/1000) <> c3 bk7.
Proof.
  assert (V : visible (633/1000)) by (unfold visible; lra). split; [exact V|]. split; [unfold visible; lra|]. split; [discriminate|].
  destruct (catalogue_visible BK7 _ V) as [n [E _]]. exists n. split; [exact E|]. unfold bk7; simpl. repeat split; lra.
Qed.
(** The three glasses at the helium d line: 1.5168, 1.6727 and 1.6477 in Schott's data sheets *)
Theorem C63_catalogue_values :
  (exists n, glass BK7 (5876/10000) = Fin n /\ 15167/10000 < n < 15169/10000) /\
  (exists n, glass SF5 (5876/10000) = Fin n /\ 16726/10000 < n < 16728/10000) /\
  (exists n, glass SF2 (5876/10000) = Fin n /\ 16476/10000 < n < 16478/10000).
Proof.
  split; [|split]; simpl glass; apply index_near; auto using bk7_ok, sf5_ok, sf2_ok; unfold visible; try lra;
  unfold bk7, sf5, sf2; cbn [b1 b2 b3 c1 c2 c3]; split; field_simplify; lra.
Qed.
Print Assumptions C63_catalogue_values.
