(** * SymbolFacts: the symbol commands of the code and the standard ones. *)

From Coq Require Import Ascii String List NArith ZArith Bool.
From Verif Require Import Base Float32 Event Tables Prim PrimTable Lex Parser PrimFacts Api SpecLex SpecNum SpecFormula FormulaCompose FormulaPrefix FormulaProps SpecSymbol
  SpecColor LexColor.
From Coq Require Import Lia.
Import ListNotations.
Open Scope N_scope.
Open Scope list_scope.
#[local] Existing Instance parsed.

Definition all_symbols : list (str * event) := standard_symbols ++ two_symbol_events ++ space_events.
Definition deviates (n : str) : bool := existsb (fun d => str_eqb (lit d) n) deviating.
Definition kept : list (str * event) := filter (fun p => negb (deviates (fst p))) all_symbols.

Lemma kept_symbols : map (fun p => lookup_prim (fst p)) kept = map (fun p => PSimple (snd p)) kept.
Proof. vm_compute. reflexivity. Qed.

Lemma map_same : forall {A B} (f g : A -> B) l, map f l = map g l -> forall x, In x l -> f x = g x.
Proof.
  induction l as [|a l IH]; intros H x Hx; [destruct Hx|]. cbn in H. injection H as H1 H2. destruct Hx as [<-|Hx]; auto.
Qed.

Lemma standard_symbol : forall n e, In (n, e) all_symbols -> ~ In n (map lit deviating) -> symbol n e.
Proof.
  intros n e Hi Hd. assert (Hk : In (n, e) kept).
  { apply filter_In. split; [exact Hi|]. cbn [fst]. apply negb_true_iff. destruct (deviates n) eqn:E; [|reflexivity]. exfalso. apply Hd.
    unfold deviates in E. apply existsb_exists in E as (d & H1 & H2). apply str_eqb_eq in H2. subst n. apply in_map. exact H1. }
  exact (map_same _ _ _ kept_symbols _ Hk).
Qed.

Lemma symbol_nucleus : forall n e, In (n, e) all_symbols -> ~ In n (map lit deviating) -> forall h b t r, blank b -> control n t r ->
  nucleus h (b ++ t) [e] no_limits r.
Proof. intros n e Hi Hd h b t r Hb Hc. eapply N_symbol; [exact Hb|exact Hc|apply standard_symbol; assumption]. Qed.

Lemma symbol_continues : forall n e b t r, In (n, e) all_symbols -> ~ In n (map lit deviating) -> blank b -> control n t r ->
  ~ starts 94 r -> ~ starts 95 r -> continues (b ++ t) [e] r.
Proof.
  intros n e b t r Hi Hd Hb Hc H1 H2. apply element_continues, plain_element; [|assumption..]. eapply symbol_nucleus; eassumption.
Qed.

Lemma assoc_in : forall {A} n (e : A) l, assoc_str n l = Some e -> In (n, e) l.
Proof.
  induction l as [|[k v] l IH]; intros H; [discriminate|]. cbn in H. destruct (str_eqb k n) eqn:E; [|right; auto].
  apply str_eqb_eq in E. injection H as ->. subst k. left. reflexivity.
Qed.

(** ** The characters themselves *)

Definition written : list (char * event) :=
  flat_map (fun k => map (fun p => (snd p, symbol_event (fst k) (snd p))) (snd k))
    [(Ord, ord_symbols); (Bin, bin_symbols); (Rel, rel_symbols); (Opening, open_symbols); (Closing, close_symbols)].

(** Characters that serve in several classes. *)
Definition ambiguous : list char :=
  [124; 8214; 8224; 8225; 8944; 8869; 8882; 8883; 8884; 8885; 8918; 8919; 8942; 8943; 8945; 9136; 9137; 9650; 9651; 9654; 9660; 9664; 9674; 9711; 9733; 8523; 10677; 10731; 10846].

Definition char_kept : list (char * event) := filter (fun p => negb (special (fst p) || existsb (N.eqb (fst p)) ambiguous)) written.

Lemma kept_chars : map (fun p => char_meaning (fst p)) char_kept = map snd char_kept.
Proof. vm_compute. reflexivity. Qed.

Lemma char_standard : forall c e, In (c, e) written -> special c = false -> ~ In c ambiguous -> char_meaning c = e.
Proof.
  intros c e Hi Hs Ha. assert (Hk : In (c, e) char_kept).
  { apply filter_In. split; [exact Hi|]. cbn [fst]. rewrite Hs. cbn [orb]. apply negb_true_iff. destruct (existsb (N.eqb c) ambiguous) eqn:E; [|reflexivity].
    exfalso. apply Ha. apply existsb_exists in E as (d & H1 & H2). apply N.eqb_eq in H2. subst d. exact H1. }
  exact (map_same _ _ _ kept_chars _ Hk).
Qed.

Lemma char_continues : forall c e b r, In (c, e) written -> special c = false -> ~ In c ambiguous -> blank b ->
  ~ starts 94 r -> ~ starts 95 r -> continues (b ++ c :: r) [e] r.
Proof.
  intros c e b r Hi Hs Ha Hb H1 H2. apply element_continues, plain_element; [|assumption..]. rewrite <- (char_standard c e Hi Hs Ha).
  apply (N_char false b c r); assumption.
Qed.

(** ** Blocks of characters *)

Fixpoint from (n : nat) (c : N) : list N := match n with O => [] | S n' => c :: from n' (c + 1) end.

Lemma from_in : forall n c d, c <= d < c + N.of_nat n -> In d (from n c).
Proof.
  induction n as [|n IH]; intros c d H; [lia|]. cbn [from]. destruct (N.eq_dec c d) as [->|Hn]; [left; reflexivity|]. right. apply IH. lia.
Qed.

Definition class_of (e : event) (c : char) : option class :=
  match e with
  | EvContent (COrdinary d false) => if d =? c then Some Ord else None
  | EvContent (CBinaryOp d false) => if d =? c then Some Bin else None
  | EvContent (CRelation d None false) => if d =? c then Some Rel else None
  | _ => None
  end.
Definition same_class (a b : class) : bool := match a, b with Ord, Ord | Bin, Bin | Rel, Rel => true | _, _ => false end.

Definition classed (k : class) (c : char) : bool :=
  negb (special c) && match class_of (char_meaning c) c with Some k' => same_class k k' | None => false end.

Lemma classed_event : forall k c, classed k c = true -> special c = false /\ char_meaning c = symbol_event k c.
Proof.
  intros k c H. unfold classed in H. apply andb_true_iff in H as [Hs H]. apply negb_true_iff in Hs. split; [exact Hs|].
  destruct (char_meaning c) as [con| | | | | | | ]; try discriminate H. unfold class_of in H.
  destruct con as [| | |d sm| |d sm|d [d2|] sm| |]; try discriminate H; destruct sm; try discriminate H;
    destruct (d =? c) eqn:E; try discriminate H; apply N.eqb_eq in E; subst d; destruct k; try discriminate H; reflexivity.
Qed.

Lemma classed_continues : forall k c b r, classed k c = true -> blank b -> ~ starts 94 r -> ~ starts 95 r -> continues (b ++ c :: r) [symbol_event k c] r.
Proof.
  intros k c b r H Hb H1 H2. apply classed_event in H as [Hs <-]. apply element_continues, plain_element; [|assumption..]. apply (N_char false b c r); assumption.
Qed.

Lemma blocks_classed : forallb (fun p => forallb (classed (snd p)) (from (N.to_nat (snd (fst p) + 1 - fst (fst p))) (fst (fst p)))) blocks = true.
Proof. vm_compute. reflexivity. Qed.

Lemma block_continues : forall lo hi k c b r, In (lo, hi, k) blocks -> lo <= c <= hi -> blank b -> ~ starts 94 r -> ~ starts 95 r ->
  continues (b ++ c :: r) [symbol_event k c] r.
Proof.
  intros lo hi k c b r Hi Hc. apply classed_continues. pose proof (proj1 (forallb_forall _ _) blocks_classed _ Hi) as H. cbn [fst snd] in H.
  apply (proj1 (forallb_forall _ _) H). apply from_in. rewrite N2Nat.id. lia.
Qed.

Lemma negations_classed : forallb (fun p => existsb (fun k => classed k (fst p) && classed k (snd p)) [Ord; Bin; Rel]) negations = true.
Proof. vm_compute. reflexivity. Qed.

Lemma negation_continues : forall c d b r, In (c, d) negations -> blank b -> ~ starts 94 r -> ~ starts 95 r ->
  exists k, continues (b ++ c :: r) [symbol_event k c] r /\ continues (b ++ d :: r) [symbol_event k d] r.
Proof.
  intros c d b r Hi Hb H1 H2. pose proof (proj1 (forallb_forall _ _) negations_classed _ Hi) as H. cbn [fst snd] in H.
  apply existsb_exists in H as (k & _ & H). apply andb_true_iff in H as [Ha Hd]. exists k. split; apply classed_continues; assumption.
Qed.

(** ** The names of colours *)

(** [s] is a name of the colour [v]. *)
Definition color_name (s : str) (v : N) : Prop :=
  In (s, v) dvips_colors \/ (~ In s dvips_names /\ exists n, Forall2 lower s n /\ In (n, v) css_colors).

Lemma color_name_reads : forall s v, color_name s v -> lex_color s = Ok (Some (bytes_of v)).
Proof. intros s v [H|(H1 & n & H2 & H3)]; [apply dvips_named, H|eapply css_named; eassumption]. Qed.

Lemma even_chars : forall s, Forall (fun c => c <> 92 /\ c <> 37 /\ c <> 123 /\ c <> 125) s -> balanced 123 125 s.
Proof. induction 1 as [|c s (H1 & H2 & H3 & H4) H IH]; constructor; assumption. Qed.

Definition small_letter (c : char) : bool := (97 <=? c) && (c <=? 122).

Lemma color_name_even : forall s v, color_name s v -> balanced 123 125 s.
Proof.
  intros s v [H|(_ & n & H2 & H3)].
  - assert (E : forallb (fun x => forallb (fun c => negb ((c =? 92) || (c =? 37) || (c =? 123) || (c =? 125))) (fst x)) dvips_colors = true)
      by (vm_compute; reflexivity).
    pose proof (proj1 (forallb_forall _ _) E _ H) as E'. cbn [fst] in E'. apply even_chars, Forall_forall. intros c Hc.
    pose proof (proj1 (forallb_forall _ _) E' _ Hc) as E2. cbv beta in E2. apply negb_true_iff in E2.
    apply orb_false_iff in E2 as [E2 E6]. apply orb_false_iff in E2 as [E2 E5]. apply orb_false_iff in E2 as [E3 E4].
    apply N.eqb_neq in E3, E4, E5, E6. auto.
  - assert (E : forallb (fun x => forallb small_letter (fst x)) css_colors = true) by (vm_compute; reflexivity).
    pose proof (proj1 (forallb_forall _ _) E _ H3) as E'. cbn [fst] in E'. clear H3 E. apply even_chars.
    induction H2 as [|c d s n Hc H2 IH]; constructor; cbn [forallb] in E'; apply andb_prop in E' as [E1 E2]; [|auto].
    unfold small_letter in E1. apply andb_prop in E1 as [E1 E3]. apply N.leb_le in E1, E3. unfold lower in Hc. lia.
Qed.

Lemma color_continues : forall b t w s v r, color_name s v -> blank b -> control (lit "color") t (w ++ 123 :: s ++ 125 :: r) -> white w ->
  continues (b ++ t) [EvState (SCColor (bytes_of v) CTText)] r.
Proof.
  intros b t w s v r Hs Hb Hc Hw. apply element_continues. eapply I_color; [exact Hb|exact Hc|exact Hw|eapply color_name_even, Hs|].
  apply color_name_reads, Hs.
Qed.

Lemma textcolor_continues : forall b t w s v u es r, color_name s v -> blank b ->
  control (lit "textcolor") t (w ++ 123 :: s ++ 125 :: u) -> white w -> nucleus true u es no_limits r -> ~ starts 94 r -> ~ starts 95 r ->
  continues (b ++ t) (EvBegin GNormal :: EvState (SCColor (bytes_of v) CTText) :: es ++ [EvEnd]) r.
Proof.
  intros b t w s v u es r Hs Hb Hc Hw Hn R1 R2. apply element_continues, plain_element; [|assumption..].
  eapply N_textcolor; [exact Hb|exact Hc|exact Hw|eapply color_name_even, Hs|apply color_name_reads, Hs|exact Hn].
Qed.
