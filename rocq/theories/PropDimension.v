(** * PropDimension: how lengths are written. *)

From Coq Require Import Ascii String List NArith ZArith QArith Qpower Qabs Bool Floats.SpecFloat.
From Verif Require Import Base Float32 Event SpecNum Lex SpecDimension FloatShow FloatRound FloatRead.
Import ListNotations.
Open Scope Q_scope.

(** C50: for every unit but mu and sp, a length is written as a decimal with the
    documented CSS unit, and the number is the documented one up to a relative
    error of 2^-22. *)
Theorem C50_units_partial : forall x u, finite x -> Qabs (value x) < (2 # 1) ^ 123 -> u <> UMu -> u <> USp ->
  exists t q, dim_display (mkDim x u) = (t ++ fst (css u))%list /\ decimal t q /\
  Qabs (q - value x * snd (css u)) <= Qabs (value x * snd (css u)) * (1 # 4194304) + (2 # 1) ^ (-148).
Proof. intros x u Hx Hv H1 H2. destruct u; try congruence; exact (units_told x _ Hx Hv). Qed.
Print Assumptions C50_units_partial.

(** Where the units are the same, the decimal written is nearer to the number
    than to any other [f32]: nothing is lost. *)
Theorem C50_same_number : forall x u, finite x -> snd (css u) == 1 ->
  exists t q, dim_display (mkDim x u) = (t ++ fst (css u))%list /\ decimal t q /\
  forall y, finite y -> Qabs (q - value x) <= Qabs (q - value y).
Proof. exact same_text. Qed.
Print Assumptions C50_same_number.

(** What is written for mu and sp instead: the number of mu has been converted to
    em, but the unit is the text [mu]; the number of sp is that of TeX, 65536 in
    a point, and not the documented one. *)
Theorem C50_others : forall x, finite x -> Qabs (value x) < (2 # 1) ^ 123 ->
  (exists t q, dim_display (mkDim x UMu) = (t ++ lit "mu")%list /\ decimal t q /\
    Qabs (q - value x * (1 # 18)) <= Qabs (value x * (1 # 18)) * (1 # 4194304) + (2 # 1) ^ (-148)) /\
  (exists t q, dim_display (mkDim x USp) = (t ++ lit "pt")%list /\ decimal t q /\
    Qabs (q - value x * (7200 # (65536 * 7227))) <= Qabs (value x * (7200 # (65536 * 7227))) * (1 # 4194304) + (2 # 1) ^ (-148)).
Proof. intros x Hx Hv. split; [exact (units_told x UMu Hx Hv)|exact (units_told x USp Hx Hv)]. Qed.
Print Assumptions C50_others.

Theorem C50_sp_refuted : exists x, finite x /\ dim_display (mkDim x USp) = lit "1.9925281pt" /\
  value x * snd (css USp) < 1 # 36.
Proof. exists (f32_of_Z 131072). vm_compute. repeat split; congruence || (left; congruence). Qed.
Print Assumptions C50_sp_refuted.

Example C50_case : finite (f32_lit 123 1) /\ Qabs (value (f32_lit 123 1)) < (2 # 1) ^ 123 /\
  dim_display (mkDim (f32_lit 123 1) UPt) = lit "12.254048pt" /\ dim_display (mkDim (f32_lit 123 1) UCm) = lit "12.3cm" /\
  decimal (lit "-12.3") (- (inject_Z 123 * (10 # 1) ^ (-1))).
Proof.
  split; [vm_compute; repeat split; congruence || (left; congruence)|]. split; [vm_compute; reflexivity|]. split; [vm_compute; reflexivity|]. split; [vm_compute; reflexivity|].
  apply (D_minus (lit "12.3")). apply (U_fraction (lit "12") (lit "3")); try discriminate; repeat constructor; vm_compute; congruence.
Qed.

(** C26: the number of a length, with up to thirty digits, is the one written, up
    to a relative error of 2^-21 for each character. *)
Theorem C26_value_partial : forall sg t q ws u d sp rest, Forall sign sg -> number t q -> (length t <= 30)%nat ->
  forallb is_ws ws = true -> In (u, d) units -> tail sp rest ->
  exists x, lex_dimension (sg ++ t ++ ws ++ u ++ sp ++ rest) = (Ok (mkDim x d), rest) /\ finite x /\
  Qabs (value x - signed (negative sg) q) <= q * (inject_Z (Z.of_nat (length t) + 1) * (1 # 2097152)).
Proof.
  intros sg t q ws u d sp rest H1 H2 H3 H4 H5 H6. destruct (dimension_read sg t q ws u d sp rest H1 H2 H3 H4 H5 H6) as (x & X1 & X2 & X3 & _).
  exists x. split; [exact X1|]. split; [exact X2|exact X3].
Qed.
Print Assumptions C26_value_partial.

(** More digits need not be a number at all. *)
Theorem C26_overflow_refuted : exists t q, number t q /\ q < inject_Z (10 ^ 39) /\
  (exists l, lex_dimension (t ++ lit "pt") = (Ok l, []) /\ dim_display l = lit "infpt").
Proof.
  exists (repeat 57%N 39), (inject_Z (decimal_of (repeat 57%N 39))). split.
  - apply N_integer; [discriminate|]. apply Forall_forall. intros c H. apply repeat_spec in H. subst c. vm_compute. split; congruence.
  - split; [vm_compute; reflexivity|]. exists (mkDim (S754_infinity false) UPt). split; vm_compute; reflexivity.
Qed.
Print Assumptions C26_overflow_refuted.

(** C70: from the text to the output, with the factors of the documentation
    except for the two units of C50. *)
Theorem C70_lengths_partial : forall sg t q ws u d sp rest, Forall sign sg -> number t q -> (length t <= 30)%nat ->
  forallb is_ws ws = true -> In (u, d) units -> tail sp rest -> d <> UMu -> d <> USp ->
  exists l t' q', lex_dimension (sg ++ t ++ ws ++ u ++ sp ++ rest) = (Ok l, rest) /\
  dim_display l = (t' ++ fst (css d))%list /\ decimal t' q' /\
  Qabs (q' - signed (negative sg) q * snd (css d)) <= q * snd (css d) * (inject_Z (Z.of_nat (length t) + 2) * (1 # 2097152)) + (2 # 1) ^ (-148).
Proof.
  intros sg t q ws u d sp rest H1 H2 H3 H4 H5 H6 N1 N2. destruct (length_told sg t q ws u d sp rest H1 H2 H3 H4 H5 H6) as (l & t' & q' & X1 & X2 & X3 & X4).
  assert (E : told d = css d) by (destruct d; congruence || reflexivity). rewrite E in *. exists l, t', q'. split; [exact X1|]. split; [exact X2|]. split; [exact X3|].
  assert (E2 : inject_Z (Z.of_nat (length t) + 2) * (1 # 2097152) == slack t + (1 # 2097152)) by (unfold slack; rewrite !inject_Z_plus; change (inject_Z 1) with 1; change (inject_Z 2) with (2 # 1); ring).
  rewrite E2. exact X4.
Qed.
Print Assumptions C70_lengths_partial.

Example C70_case : number (lit "12,3456789") (inject_Z 123456789 * (10 # 1) ^ (-7)) /\ tail [] (lit "x") /\
  exists l, lex_dimension (lit "- +12,3456789 ccx") = (Ok l, lit "x") /\ dim_display l = lit "-157.92758pt" /\ In (lit "cc", UCc) units.
Proof.
  split; [apply (N_fraction (lit "12") 44 (lit "3456789")); [right; reflexivity| |]; repeat constructor; vm_compute; congruence|].
  split; [left; split; [reflexivity|vm_compute; congruence]|]. eexists. split; [vm_compute; reflexivity|]. split; [vm_compute; reflexivity|]. vm_compute. tauto.
Qed.
