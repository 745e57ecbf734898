(** * LexNum: numbers and dimensions are read as written. *)

From Coq Require Import List NArith ZArith Bool Lia Floats.SpecFloat.
From Verif Require Import Base Float32 Event Tables Lex Primitives Spans Keep SpecNum FloatFacts.
Import ListNotations.
Open Scope N_scope.

Lemma is_digit_iff : forall c, is_digit c = true <-> digit c.
Proof. intros c. unfold is_digit, digit. rewrite andb_true_iff, !N.leb_le. tauto. Qed.

Lemma is_numeral_iff : forall c, is_numeral c = true <-> numeric c.
Proof. intros c. unfold is_numeral, numeric. rewrite !orb_true_iff, !N.eqb_eq, is_digit_iff. tauto. Qed.

Lemma is_sign_iff : forall c, is_sign c = true <-> sign c.
Proof. intros c. unfold is_sign, sign. rewrite !orb_true_iff, !N.eqb_eq. tauto. Qed.

(** The longest run of characters of a class. *)
Lemma span_while_app : forall (f : char -> bool) (P : char -> Prop), (forall c, f c = true <-> P c) ->
  forall a b, Forall P a -> not_next P b -> span_while f (a ++ b) = (a, b).
Proof.
  intros f P Hf. induction a as [|c a IH]; intros b Ha Hb; cbn [app].
  - destruct b as [|c b]; [reflexivity|]. cbn [span_while]. cbn in Hb. destruct (f c) eqn:E; [|reflexivity].
    exfalso. apply Hb, Hf. exact E.
  - inversion Ha; subst. cbn [span_while]. rewrite (proj2 (Hf c)) by assumption. rewrite IH by assumption. reflexivity.
Qed.

(** ** Numerals *)

Lemma ends_with_last : forall d s c, ends_with_char d (s ++ [c]) = (c =? d).
Proof.
  intros d. induction s as [|x s IH]; intros c; [reflexivity|]. cbn [app ends_with_char].
  destruct (s ++ [c]) eqn:E; [destruct s; discriminate|]. rewrite <- E. apply IH.
Qed.

Lemma numeral_run : forall c0 r rest, digit c0 -> Forall numeric r -> not_next numeric rest ->
  numeral false (c0 :: r ++ rest) =
  let n := c0 :: r in if ends_with_char 46 n || ends_with_char 44 n then removelast n else n.
Proof.
  intros c0 r rest H0 Hr Hn. unfold numeral. rewrite (span_while_app is_numeral numeric is_numeral_iff) by assumption. reflexivity.
Qed.

(** A run that ends with a digit is the number. *)
Lemma numeral_digit : forall r c rest, digit (hd c r) -> Forall numeric r -> digit c -> not_next numeric rest ->
  numeral false (r ++ c :: rest) = r ++ [c].
Proof.
  intros r c rest H0 Hr Hc Hn.
  assert (E : exists c0 r', r ++ [c] = c0 :: r' /\ digit c0 /\ Forall numeric r').
  { destruct r as [|c0 r']; cbn in H0 |- *; [exists c, []; auto|]. exists c0, (r' ++ [c]). split; [reflexivity|].
    split; [exact H0|]. apply Forall_app. split; [inversion Hr; assumption|]. constructor; [right; right; exact Hc|constructor]. }
  destruct E as (c0 & r' & E & Hc0 & Hr'). change (c :: rest) with ([c] ++ rest). rewrite app_assoc, E. cbn [app].
  rewrite numeral_run by assumption. cbv zeta. rewrite <- E, !ends_with_last.
  unfold digit in Hc. destruct (N.eqb_spec c 46), (N.eqb_spec c 44); try lia. reflexivity.
Qed.

(** One separator at the end of the run is left. *)
Lemma numeral_separator : forall r c rest, r <> [] -> digit (hd c r) -> Forall numeric r -> c = 46 \/ c = 44 ->
  not_next numeric rest -> numeral false (r ++ c :: rest) = r.
Proof.
  intros r c rest Hne H0 Hr Hc Hn. destruct r as [|c0 r']; [contradiction|]. cbn [hd] in H0.
  replace ((c0 :: r') ++ c :: rest) with (c0 :: (r' ++ [c]) ++ rest) by (cbn [app]; rewrite <- app_assoc; reflexivity).
  rewrite numeral_run; [|assumption| |assumption].
  - cbv zeta. change (c0 :: r' ++ [c]) with ((c0 :: r') ++ [c]). rewrite !ends_with_last, removelast_last.
    destruct Hc; subst; reflexivity.
  - apply Forall_app. split; [inversion Hr; assumption|]. constructor; [|constructor]. unfold numeric. tauto.
Qed.

(** ** Dimensions *)

Lemma decimal_nonneg_aux : forall ds z, digits ds -> (0 <= z)%Z ->
  (z <= fold_left (fun z c => (10 * z + (Z.of_N c - 48))%Z) ds z)%Z.
Proof.
  induction ds as [|c ds IH]; intros z Hd Hz; cbn [fold_left]; [lia|]. inversion Hd; subst. unfold digit in *.
  specialize (IH (10 * z + (Z.of_N c - 48))%Z ltac:(assumption)). lia.
Qed.

Lemma f32_digits_aux : forall ds z, digits ds -> (0 <= z)%Z ->
  (fold_left (fun z c => (10 * z + (Z.of_N c - 48))%Z) ds z < 2 ^ 24)%Z ->
  fold_left (fun n c => f32_add (f32_mul n (f32_of_Z 10)) (f32_of_Z (Z.of_N (digit_val c)))) ds (f32_of_Z z) =
  f32_of_Z (fold_left (fun z c => (10 * z + (Z.of_N c - 48))%Z) ds z).
Proof.
  induction ds as [|c ds IH]; intros z Hd Hz Hlt; cbn [fold_left] in *; [reflexivity|].
  inversion Hd as [|? ? Hc Hds]; subst. unfold digit in Hc.
  pose proof (decimal_nonneg_aux ds (10 * z + (Z.of_N c - 48))%Z Hds ltac:(lia)) as Hm.
  unfold digit_val at 2. rewrite N2Z.inj_sub by lia. change (Z.of_N 48) with 48%Z.
  rewrite digit_exact by lia. apply IH; [assumption|lia|exact Hlt].
Qed.

Lemma f32_digits_exact : forall ds, digits ds -> (decimal_of ds < 2 ^ 24)%Z -> f32_digits ds = f32_of_Z (decimal_of ds).
Proof. intros ds Hd H. apply (f32_digits_aux ds 0%Z Hd ltac:(lia) H). Qed.

Lemma f32_pow10_exact : forall ds, (length ds <= 7)%nat -> f32_pow10 ds = f32_of_Z (10 ^ Z.of_nat (length ds)).
Proof.
  intros ds H. do 8 (destruct ds as [|? ds]; [vm_compute; reflexivity|]). cbn [length] in H. lia.
Qed.

Lemma decimal_nonneg : forall ds, digits ds -> (0 <= decimal_of ds)%Z.
Proof. intros ds H. exact (decimal_nonneg_aux ds 0%Z H ltac:(lia)). Qed.

Lemma negative_odd : forall s, Nat.odd (length (filter (fun c => c =? 45) s)) = negative s.
Proof.
  induction s as [|c s IH]; [reflexivity|]. cbn [filter negative]. destruct (c =? 45); [|exact IH].
  cbn [length]. rewrite Nat.odd_succ, <- Nat.negb_odd, IH. reflexivity.
Qed.

Lemma signs_app : forall sg s, Forall sign sg -> not_next sign s -> signs (sg ++ s) = (Ok (negative sg), s).
Proof.
  intros sg s Hg Hs. unfold signs. rewrite (span_while_app is_sign sign is_sign_iff) by assumption. rewrite negative_odd.
  f_equal. destruct s as [|c s]; [reflexivity|]. cbn [trim_start]. cbn in Hs. destruct (is_ws c) eqn:E; [|reflexivity].
  exfalso. apply Hs. unfold sign. tauto.
Qed.

(** After the digits comes neither a digit nor a separator. *)
Definition plain_end (s : str) : Prop := not_next numeric s.

Lemma fp_value : forall sg ds rest, Forall sign sg -> digits ds -> not_next sign (ds ++ rest) -> not_next numeric rest ->
  floating_point (sg ++ ds ++ rest) =
  (Ok (f32_mul (f32_of_Z (if negative sg then -1 else 1)%Z) (f32_digits ds)), rest).
Proof.
  intros sg ds rest Hsg Hds Hns Hn. unfold floating_point, bind, get, ret, put. rewrite signs_app by assumption.
  rewrite (span_while_app is_digit digit is_digit_iff).
  - destruct rest as [|c r]; [reflexivity|]. cbn in Hn.
    destruct (N.eqb_spec c 46); [exfalso; apply Hn; unfold numeric; tauto|].
    destruct (N.eqb_spec c 44); [exfalso; apply Hn; unfold numeric; tauto|]. reflexivity.
  - exact Hds.
  - destruct rest as [|c r]; [exact I|]. cbn in Hn |- *. intros Hc. apply Hn. unfold numeric. tauto.
Qed.

Lemma fp_integer : forall sg ds rest, Forall sign sg -> digits ds -> not_next sign (ds ++ rest) -> not_next numeric rest ->
  (decimal_of ds < 2 ^ 24)%Z ->
  floating_point (sg ++ ds ++ rest) = (Ok (f32_signed (negative sg) (decimal_of ds)), rest).
Proof.
  intros sg ds rest Hsg Hds Hns Hn Hlt. rewrite fp_value by assumption. rewrite f32_digits_exact by assumption.
  rewrite sign_exact by (split; [apply decimal_nonneg; assumption|exact Hlt]). reflexivity.
Qed.

Lemma fp_fraction : forall sg ds p fs rest, Forall sign sg -> digits ds -> digits fs -> p = 46 \/ p = 44 ->
  not_next digit rest -> (decimal_of ds < 2 ^ 24)%Z -> (decimal_of fs < 2 ^ 24)%Z -> (length fs <= 7)%nat ->
  floating_point (sg ++ ds ++ p :: fs ++ rest) =
  (Ok (f32_mul (f32_of_Z (if negative sg then -1 else 1)%Z)
        (f32_add (f32_of_Z (decimal_of ds))
           (f32_div (f32_of_Z (decimal_of fs)) (f32_of_Z (10 ^ Z.of_nat (length fs)))))), rest).
Proof.
  intros sg ds p fs rest Hsg Hds Hfs Hp Hn Hlt Hltf Hlen. unfold floating_point, bind, get, ret, put.
  assert (Hns : not_next sign (ds ++ p :: fs ++ rest)).
  { destruct ds as [|c ds]; cbn; unfold sign.
    - destruct Hp; subst; intros [?|[?|?]]; try lia; discriminate.
    - inversion Hds; subst. unfold digit in *. intros [?|[?|Hw]]; try lia.
      unfold is_ws in Hw. repeat (apply orb_prop in Hw as [Hw|Hw]); rewrite ?andb_true_iff, ?N.leb_le, ?N.eqb_eq in Hw; lia. }
  rewrite signs_app by assumption. rewrite (span_while_app is_digit digit is_digit_iff).
  - replace ((p =? 46) || (p =? 44)) with true by (destruct Hp; subst; reflexivity).
    rewrite (span_while_app is_digit digit is_digit_iff) by assumption.
    rewrite !f32_digits_exact, f32_pow10_exact by assumption. reflexivity.
  - exact Hds.
  - destruct Hp; subst; cbn; unfold digit; lia.
Qed.

Lemma units_table : forall u d, In (u, d) units -> assoc_str u unit_table = Some d /\ length u = 2%nat /\ is_ws (hd 0 u) = false.
Proof.
  intros u d H. assert (Ht : forallb (fun x => match assoc_str (fst x) unit_table with
      | Some d => match d, snd x with
        | UEm, UEm | UEx, UEx | UMu, UMu | UPt, UPt | UPc, UPc | UIn, UIn | UBp, UBp | UCm, UCm | UMm, UMm
        | UDd, UDd | UCc, UCc | USp, USp => true | _, _ => false end
      | None => false end && Nat.eqb (length (fst x)) 2 && negb (is_ws (hd 0 (fst x)))) units = true) by (vm_compute; reflexivity).
  pose proof (proj1 (forallb_forall _ _) Ht _ H) as H1. cbn [fst snd] in H1.
  apply andb_prop in H1 as [H1 H3]. apply andb_prop in H1 as [H1 H2]. apply Nat.eqb_eq in H2. apply negb_true_iff in H3.
  split; [|split; assumption]. destruct (assoc_str u unit_table) as [d'|]; [|discriminate]. f_equal.
  destruct d', d; congruence.
Qed.

Lemma units_only : forall u d, assoc_str u unit_table = Some d -> In (u, d) units.
Proof.
  intros u d H. apply assoc_str_in in H.
  repeat (destruct H as [H|H]; [injection H as <- <-; vm_compute; tauto|]). contradiction.
Qed.

Lemma unit_read : forall ws u d rest, forallb is_ws ws = true -> In (u, d) units ->
  dimension_unit (ws ++ u ++ rest) = (do _ <- one_optional_space ; ret d) rest.
Proof.
  intros ws u d rest Hws Hu. destruct (units_table u d Hu) as (Ha & Hl & Hh).
  destruct u as [|a [|b [|? ?]]]; try discriminate. unfold dimension_unit.
  assert (E : trim_start (ws ++ [a; b] ++ rest) = a :: b :: rest).
  { induction ws as [|c ws IH]; cbn [app trim_start].
    - cbn in Hh. rewrite Hh. reflexivity.
    - cbn [forallb] in Hws. apply andb_prop in Hws as [Hc Hws]. rewrite Hc. apply IH. exact Hws. }
  rewrite E, Ha. reflexivity.
Qed.

Lemma unit_fails : forall ws s, forallb is_ws ws = true -> not_next (fun c => is_ws c = true) s ->
  (forall u d, In (u, d) units -> firstn 2 s <> u) -> dimension_unit (ws ++ s) = (Err EDimensionUnit, s).
Proof.
  intros ws s Hws Hs Hu. unfold dimension_unit.
  assert (E : trim_start (ws ++ s) = s).
  { induction ws as [|c ws IH]; cbn [app trim_start].
    - destruct s as [|c s]; [reflexivity|]. cbn [trim_start]. cbn in Hs. destruct (is_ws c); [contradiction|reflexivity].
    - cbn [forallb] in Hws. apply andb_prop in Hws as [Hc Hws]. rewrite Hc. apply IH. exact Hws. }
  rewrite E. destruct s as [|a [|b r]]; try reflexivity. destruct (assoc_str [a; b] unit_table) as [d|] eqn:Ea; [|reflexivity].
  exfalso. exact (Hu _ _ (units_only _ _ Ea) eq_refl).
Qed.

Lemma ws_small : forall c, is_ws c = true -> ~ numeric c /\ c <> 45 /\ c <> 43.
Proof.
  intros c H. unfold is_ws in H. unfold numeric, digit.
  repeat (apply orb_prop in H as [H|H]); rewrite ?andb_true_iff, ?N.leb_le, ?N.eqb_eq in H; lia.
Qed.

Lemma digits_not_sign : forall ds s, digits ds -> ds <> [] -> not_next sign (ds ++ s).
Proof.
  intros [|c ds] s H Hn; [contradiction|]. inversion H as [|? ? Hc ?]; subst. cbn. intros [->|[->|Hw]].
  - unfold digit in Hc. lia.
  - unfold digit in Hc. lia.
  - apply ws_small in Hw as [Hw _]. apply Hw. right; right. exact Hc.
Qed.

Lemma unit_head : forall u d rest, In (u, d) units -> not_next numeric (u ++ rest).
Proof.
  intros u d rest H.
  assert (Ht : forallb (fun x => match fst x with [] => false | c :: _ => (97 <=? c) end) units = true) by (vm_compute; reflexivity).
  pose proof (proj1 (forallb_forall _ _) Ht _ H) as H1. cbn [fst] in H1. destruct u as [|c u]; [discriminate|].
  apply N.leb_le in H1. cbn. unfold numeric, digit. lia.
Qed.

Lemma ws_unit_head : forall ws u d rest, forallb is_ws ws = true -> In (u, d) units -> not_next numeric (ws ++ u ++ rest).
Proof.
  intros [|c ws] u d rest Hw Hu; [exact (unit_head u d rest Hu)|]. cbn [forallb] in Hw. apply andb_prop in Hw as [Hc _].
  cbn. apply ws_small in Hc. tauto.
Qed.

Lemma no_space : forall {A} (d : A) rest, not_next (fun c => is_ws c = true) rest ->
  (do _ <- one_optional_space ; ret d) rest = (Ok d, rest).
Proof.
  intros A d rest H. unfold bind, one_optional_space, ret. destruct rest as [|c r]; [reflexivity|]. cbn in H.
  destruct (is_ws c); [contradiction|reflexivity].
Qed.

Lemma dimension_integer : forall sg ds ws u d rest,
  Forall sign sg -> digits ds -> ds <> [] -> (decimal_of ds < 2 ^ 24)%Z ->
  forallb is_ws ws = true -> In (u, d) units -> not_next (fun c => is_ws c = true) rest ->
  lex_dimension (sg ++ ds ++ ws ++ u ++ rest) = (Ok (mkDim (f32_signed (negative sg) (decimal_of ds)) d), rest) /\
  lex_dimension (sg ++ ds ++ ws ++ u ++ 32 :: rest) = (Ok (mkDim (f32_signed (negative sg) (decimal_of ds)) d), rest).
Proof.
  intros sg ds ws u d rest Hsg Hds Hne Hlt Hws Hu Hr. split; unfold lex_dimension, bind at 1.
  - rewrite fp_integer by (auto using digits_not_sign; eapply ws_unit_head; eassumption).
    unfold bind at 1. rewrite (unit_read ws u d rest Hws Hu). rewrite no_space by exact Hr. reflexivity.
  - rewrite fp_integer by (auto using digits_not_sign; eapply ws_unit_head; eassumption).
    unfold bind at 1. rewrite (unit_read ws u d (32 :: rest) Hws Hu). reflexivity.
Qed.

Lemma dimension_fraction : forall sg ds p fs ws u d rest,
  Forall sign sg -> digits ds -> digits fs -> p = 46 \/ p = 44 ->
  (decimal_of ds < 2 ^ 24)%Z -> (decimal_of fs < 2 ^ 24)%Z -> (length fs <= 7)%nat ->
  forallb is_ws ws = true -> In (u, d) units -> not_next (fun c => is_ws c = true) rest ->
  lex_dimension (sg ++ ds ++ p :: fs ++ ws ++ u ++ rest) =
  (Ok (mkDim (f32_mul (f32_of_Z (if negative sg then -1 else 1)%Z)
        (f32_add (f32_of_Z (decimal_of ds))
           (f32_div (f32_of_Z (decimal_of fs)) (f32_of_Z (10 ^ Z.of_nat (length fs)))))) d), rest).
Proof.
  intros sg ds p fs ws u d rest Hsg Hds Hfs Hp Hlt Hltf Hlen Hws Hu Hr. unfold lex_dimension, bind at 1.
  rewrite fp_fraction; try assumption.
  - unfold bind at 1. rewrite (unit_read ws u d rest Hws Hu). rewrite no_space by exact Hr. reflexivity.
  - pose proof (ws_unit_head ws u d rest Hws Hu) as H. destruct (ws ++ u ++ rest); [exact I|]. cbn in H |- *.
    intros Hd. apply H. right; right. exact Hd.
Qed.

Lemma dimension_no_unit : forall sg ds ws s,
  Forall sign sg -> digits ds -> ds <> [] -> forallb is_ws ws = true -> not_next (fun c => is_ws c = true) s ->
  not_next numeric (ws ++ s) -> (forall u d, In (u, d) units -> firstn 2 s <> u) ->
  lex_dimension (sg ++ ds ++ ws ++ s) = (Err EDimensionUnit, s).
Proof.
  intros sg ds ws s Hsg Hds Hne Hws Hs Hn Hu. unfold lex_dimension, bind at 1.
  rewrite fp_value by auto using digits_not_sign. unfold bind at 1. rewrite unit_fails by assumption. reflexivity.
Qed.
