(** * FormulaProps: consequences of the meaning of formulas. *)

From Coq Require Import Ascii String List NArith ZArith Bool Lia Arith.
From Verif Require Import Base Float32 Event Tables Prim PrimTable Lex Macros Primitives Spans Parser
  SpecLex SpecNum LexFacts LexMore LexNum PrimFacts Keep KeepRun Measure Order Terminate Api Sim SimRun SpanFacts MacroRun
  SpecFormula FormulaLex FormulaActs FormulaNucleus FormulaNucleus2 FormulaNucleus3 FormulaNucleus4 FormulaStep FormulaPrefix
  FormulaCompose FormulaDerive.
Import ListNotations.
Open Scope N_scope.
Open Scope list_scope.

Strategy 1000 [parse parse_fuel].

(** The texts inside a formula may be any that parse without error and define
    nothing. *)
#[local] Existing Instance parsed.

(** [continues s es r]: parsing [s] yields the events [es] first, and then what
    parsing [r] yields, up to the first error if there is one. *)
Definition continues (s : str) (es : list event) (r : str) : Prop :=
  yields s (map ItEvent es) /\
  forall v w, shows (new_parser s) v -> shows (new_parser r) w -> complete v -> complete w -> v = (es ++ fst w, snd w).

Lemma begins_continues : forall s es r, begins s es r -> continues s es r.
Proof.
  intros s es r H. split.
  - destruct (begins_run parsed_sound s es r H) as (n & o & p & E). exists n. rewrite E. reflexivity.
  - intros v w. apply (begins_shows parsed_sound), H.
Qed.

Lemma element_continues : forall s es r, element s es r -> continues s es r.
Proof.
  intros s es r H. apply begins_continues. rewrite <- (app_nil_r es). eapply B_cons; [exact H|apply B_nil].
Qed.

Lemma meaning_parses : forall s es, formula None s es -> parses s (map ItEvent es).
Proof. intros s es H. apply (formula_parses parsed_sound), H. Qed.

Lemma parsed_text : forall s es, parses s (map ItEvent es) -> defines_nothing s -> formula None s es.
Proof. intros s es H1 H2. apply F_known. split; [apply parses_in_none, H1|exact H2]. Qed.

(** ** Scripts *)

Definition default_position (l : limits) : script_pos := match snd l with Some p => p | None => SPRight end.

Lemma mark_placed : forall l c s, c = 94 \/ c = 95 -> placed l (c :: s) (default_position l) (c :: s).
Proof.
  intros [[] d] c s Hc; unfold placed, default_position; cbn [fst snd]; [|auto]. apply M_none. intros w r Hw.
  split; intros E; destruct w as [|x w]; cbn in E; injection E as E1 E2; subst; try (destruct Hc; discriminate);
    cbn in Hw; apply andb_prop in Hw as [Hw _]; destruct Hc; subst; discriminate.
Qed.

(** A base, and an argument of a script, written before a script mark. *)
Definition as_base (x : str) (es : list event) (l : limits) : Prop :=
  forall c r, c = 94 \/ c = 95 -> nucleus false (x ++ c :: r) es l (c :: r).
Definition as_script (u : str) (a : list event) : Prop :=
  forall c r, c = 94 \/ c = 95 -> nucleus true (u ++ c :: r) a no_limits (c :: r).

Lemma both_orders : forall x es l u a v b r, as_base x es l -> as_script u a -> as_script v b ->
  nucleus true (u ++ r) a no_limits r -> nucleus true (v ++ r) b no_limits r -> no_script r ->
  continues (x ++ 95 :: u ++ 94 :: v ++ r) (EvScript STSubSup (default_position l) :: es ++ a ++ b) r /\
  continues (x ++ 94 :: v ++ 95 :: u ++ r) (EvScript STSubSup (default_position l) :: es ++ a ++ b) r.
Proof.
  intros x es l u a v b r Hx Hu Hv Hu' Hv' Hr. split; apply element_continues.
  - eapply I_nucleus; [apply Hx; auto|apply mark_placed; auto|]. apply (S_sub_sup _ es [] (u ++ 94 :: v ++ r) a (v ++ r) b r); auto; reflexivity.
  - eapply I_nucleus; [apply Hx; auto|apply mark_placed; auto|]. apply (S_sup_sub _ es [] (v ++ 95 :: u ++ r) b (u ++ r) a r); auto; reflexivity.
Qed.

Lemma group_nucleus : forall h g es r, balanced 123 125 g -> parses g (map ItEvent es) -> defines_nothing g ->
  nucleus h (123 :: g ++ 125 :: r) (EvBegin GNormal :: es ++ [EvEnd]) no_limits r.
Proof.
  intros h g es r Hb Hp Hd. apply (N_group h [] g es r); [constructor|exact Hb|]. apply parsed_text; assumption.
Qed.

Lemma group_app : forall (g t : str), (123 :: g ++ [125]) ++ t = 123 :: g ++ 125 :: t.
Proof. intros g t. cbn. rewrite <- app_assoc. reflexivity. Qed.

Lemma group_base : forall g es, balanced 123 125 g -> parses g (map ItEvent es) -> defines_nothing g ->
  as_base (123 :: g ++ [125]) (EvBegin GNormal :: es ++ [EvEnd]) no_limits.
Proof. intros g es H1 H2 H3 c r _. rewrite group_app. apply group_nucleus; assumption. Qed.

Lemma group_script : forall g es, balanced 123 125 g -> parses g (map ItEvent es) -> defines_nothing g ->
  as_script (123 :: g ++ [125]) (EvBegin GNormal :: es ++ [EvEnd]).
Proof. intros g es H1 H2 H3 c r _. rewrite group_app. apply group_nucleus; assumption. Qed.

Lemma symbol_control : forall cs c r, Forall letter cs -> cs <> [] -> c = 94 \/ c = 95 -> control cs (92 :: cs ++ c :: r) (c :: r).
Proof.
  intros cs c r Hl Hn Hc. exists []. split; [reflexivity|]. split; [reflexivity|]. split; [cbn; destruct Hc; subst; discriminate|].
  left. split; [exact Hn|]. split; [exact Hl|]. cbn. unfold letter. destruct Hc; subst; lia.
Qed.

Lemma char_base : forall c, special c = false -> as_base [c] [char_meaning c] no_limits.
Proof. intros c Hc d r _. apply (N_char false [] c (d :: r)); [constructor|exact Hc]. Qed.
Lemma char_script : forall c, special c = false -> as_script [c] [char_meaning c].
Proof. intros c Hc d r _. apply (N_char true [] c (d :: r)); [constructor|exact Hc]. Qed.

Lemma command_base : forall cs c, Forall letter cs -> cs <> [] -> In (cs, c) commands -> c_args c = [] ->
  as_base (92 :: cs) (fill [] (c_body c)) (c_limits c).
Proof.
  intros cs c Hl Hn Hi Ha m r Hm. apply (N_command false [] cs (92 :: cs ++ m :: r) (m :: r) c [] (m :: r)); [constructor| |exact Hi|].
  - apply symbol_control; assumption.
  - rewrite Ha. apply A_nil.
Qed.

(** Groups as base and as scripts. *)
Lemma groups_both_orders : forall x es u a v b r, 
  balanced 123 125 x -> parses x (map ItEvent es) -> defines_nothing x ->
  balanced 123 125 u -> parses u (map ItEvent a) -> defines_nothing u ->
  balanced 123 125 v -> parses v (map ItEvent b) -> defines_nothing v -> no_script r ->
  let g t := 123 :: t ++ [125] in let e t := EvBegin GNormal :: t ++ [EvEnd] in
  continues (g x ++ 95 :: g u ++ 94 :: g v ++ r) (EvScript STSubSup SPRight :: e es ++ e a ++ e b) r /\
  continues (g x ++ 94 :: g v ++ 95 :: g u ++ r) (EvScript STSubSup SPRight :: e es ++ e a ++ e b) r.
Proof.
  intros x es u a v b r X1 X2 X3 U1 U2 U3 V1 V2 V3 Hr g e. apply (both_orders (g x) (e es) no_limits (g u) (e a) (g v) (e b) r); unfold g, e.
  - apply group_base; assumption.
  - apply group_script; assumption.
  - apply group_script; assumption.
  - rewrite group_app. apply group_nucleus; assumption.
  - rewrite group_app. apply group_nucleus; assumption.
  - exact Hr.
Qed.

(** ** Modifiers of the position of scripts *)

Definition modifier := (str * bool)%type.
Definition modifier_text (m : modifier) : str := fst m ++ (if snd m then lit "\limits" else lit "\nolimits").
Definition modifiers_text (ms : list modifier) : str := flat_map modifier_text ms.
Definition position_of (m : modifier) : script_pos := if snd m then SPAboveBelow else SPRight.
Definition last_position (d : script_pos) (ms : list modifier) : script_pos :=
  match rev ms with [] => d | m :: _ => position_of m end.
Definition no_modifier (t : str) : Prop :=
  forall w r, white w -> t <> w ++ lit "\limits" ++ r /\ t <> w ++ lit "\nolimits" ++ r.

Lemma last_position_cons : forall d m ms, last_position d (m :: ms) = last_position (position_of m) ms.
Proof.
  intros d m ms. unfold last_position. cbn [rev]. destruct (rev ms) as [|x l]; reflexivity.
Qed.

Lemma modifiers_run : forall ms d t, Forall (fun m => white (fst m)) ms -> no_modifier t ->
  modifiers d (modifiers_text ms ++ t) (last_position d ms) t.
Proof.
  induction ms as [|[w b] ms IH]; intros d t Hw Ht.
  - apply M_none, Ht.
  - inversion Hw; subst. rewrite last_position_cons. unfold modifiers_text. cbn [flat_map]. unfold modifier_text at 1. cbn [fst snd].
    destruct b; rewrite <- !app_assoc; [apply M_limits|apply M_nolimits]; try assumption; apply IH; assumption.
Qed.

Lemma last_modifier : forall s es d ms t es' r, nucleus false s es (true, d) (modifiers_text ms ++ t) ->
  Forall (fun m => white (fst m)) ms -> no_modifier t ->
  scripts (last_position (default_position (true, d)) ms) es t es' r -> continues s es' r.
Proof.
  intros s es d ms t es' r Hn Hw Ht Hs. apply element_continues. eapply I_nucleus; [exact Hn| |exact Hs].
  unfold placed. cbn [fst]. apply modifiers_run; assumption.
Qed.

Lemma white_split : forall w s, white w -> not_next (fun c => is_ws c = true) s -> trim_start (w ++ s) = s.
Proof.
  induction w as [|c w IH]; intros s Hw Hs; cbn.
  - destruct s as [|x s]; [reflexivity|]. cbn in Hs |- *. destruct (is_ws x); [exfalso; apply Hs; reflexivity|reflexivity].
  - cbn in Hw. apply andb_prop in Hw as [-> Hw]. apply IH; assumption.
Qed.

(** The operators among the commands, with any modifiers and one subscript; for
    two scripts and others use [last_modifier]. *)
Lemma operator_modifiers : forall cs c ms w u a r, In (cs, c) commands -> c_args c = [] -> fst (c_limits c) = true ->
  Forall (fun m => white (fst m)) ms -> white w -> nucleus true u a no_limits r -> no_script r ->
  continues (92 :: cs ++ modifiers_text ms ++ w ++ 95 :: u)
    (EvScript STSub (last_position (default_position (c_limits c)) ms) :: fill [] (c_body c) ++ a) r.
Proof.
  intros cs c ms w u a r Hi Ha Hl Hms Hw Hu Hr. destruct (c_limits c) as [lb d] eqn:El. cbn in Hl. subst lb.
  assert (Hcs : cs <> [] /\ Forall letter cs).
  { assert (Hall : forallb (fun p => negb (is_nil (fst p)) && forallb is_alpha (fst p)) commands = true) by (vm_compute; reflexivity).
    rewrite forallb_forall in Hall. specialize (Hall _ Hi). apply andb_prop in Hall as [H1 H2]. cbn in H1, H2. split.
    - destruct cs; [discriminate|congruence].
    - rewrite forallb_forall in H2. apply Forall_forall. intros x Hx. apply letter_alpha, H2, Hx. }
  destruct Hcs as [Hn Hcl].
  (* the white space after the name belongs to the command *)
  set (first := match ms with [] => w | m :: _ => fst m end).
  set (ms' := match ms with [] => [] | m :: l => ([], snd m) :: l end).
  set (w' := match ms with [] => [] | _ => w end).
  assert (Et : modifiers_text ms ++ w ++ 95 :: u = first ++ modifiers_text ms' ++ w' ++ 95 :: u).
  { destruct ms as [|[w0 b] ms]; [reflexivity|]. unfold first, ms', w', modifiers_text. cbn [flat_map]. unfold modifier_text at 1 3. cbn [fst snd app].
    rewrite <- !app_assoc. reflexivity. }
  assert (Hfirst : white first) by (destruct ms; [exact Hw|inversion Hms; assumption]).
  assert (Hms' : Forall (fun m => white (fst m)) ms') by (destruct ms; [constructor|inversion Hms; constructor; [reflexivity|assumption]]).
  assert (Hw' : white w') by (destruct ms; [reflexivity|exact Hw]).
  assert (Hlast : forall d, last_position d ms = last_position d ms').
  { intros d0. destruct ms as [|[w0 b] ms]; [reflexivity|]. unfold ms'. rewrite !last_position_cons. reflexivity. }
  rewrite Et, Hlast. apply (last_modifier _ (fill [] (c_body c)) d ms' (w' ++ 95 :: u)); [|exact Hms'| |].
  - rewrite <- El. apply (N_command false [] cs (92 :: cs ++ first ++ modifiers_text ms' ++ w' ++ 95 :: u) (modifiers_text ms' ++ w' ++ 95 :: u) c [] _);
      [constructor| |exact Hi|rewrite Ha; apply A_nil].
    exists first. split; [reflexivity|]. split; [exact Hfirst|].
    assert (Hh : not_next (fun c => is_ws c = true) (modifiers_text ms' ++ w' ++ 95 :: u) /\ not_next letter (modifiers_text ms' ++ w' ++ 95 :: u)).
    { destruct ms as [|[w0 [|]] ms]; cbn; unfold letter; split; (discriminate || lia). }
    split; [apply Hh|]. left. split; [exact Hn|]. split; [exact Hcl|].
    destruct first as [|x first']; [apply Hh|]. cbn. intros Hx. apply letter_alpha in Hx. cbn in Hfirst. apply andb_prop in Hfirst as [Hf _].
    revert Hx Hf. clear. unfold is_alpha. intros Hx Hf. apply orb_prop in Hx as [Hx|Hx]; apply andb_prop in Hx as [H1 H2]; apply N.leb_le in H1, H2;
      unfold is_ws in Hf; repeat (apply orb_prop in Hf as [Hf|Hf]; [|]); try (apply andb_prop in Hf as [H3 H4]; apply N.leb_le in H3, H4; lia); apply N.eqb_eq in Hf; lia.
  - intros w0 r0 Hw0. split; intros E; pose proof (f_equal trim_start E) as E';
      rewrite (white_split w') in E' by (try exact Hw'; cbn; discriminate); rewrite (white_split w0) in E' by (try exact Hw0; cbn; discriminate); discriminate.
  - apply S_sub; assumption.
Qed.

Lemma plain_element : forall s es r, nucleus false s es no_limits r -> ~ starts 94 r -> ~ starts 95 r -> element s es r.
Proof.
  intros s es r H R1 R2. apply (I_nucleus s es no_limits r SPRight r es r H); [split; reflexivity|apply S_none; assumption].
Qed.

(** ** [\left] and [\right] *)

Definition nonletter_head (s : str) : Prop := not_next letter s.

Lemma prefix_app : forall o g t, Forall letter (tl o) -> (1 <= List.length g)%nat -> prefix o (g ++ t) -> nonletter_head t -> prefix o g.
Proof.
  intros o g. revert o. induction g as [|x g IH]; intros o t Ho Hl [r E] Ht; [cbn in Hl; lia|]. destruct o as [|y o]; [exists (x :: g); reflexivity|].
  cbn in E. injection E as -> E. destruct o as [|z o]; [exists g; reflexivity|]. destruct g as [|x' g].
  - cbn in E. subst t. cbn in Ht. inversion Ho; contradiction.
  - destruct (IH (z :: o) t) as [r' E'].
    + inversion Ho; assumption.
    + cbn. lia.
    + exists r. exact E.
    + exact Ht.
    + exists r'. cbn. f_equal. exact E'.
Qed.

Definition left_str : str := lit "\left".
Definition right_str : str := lit "\right".

Lemma not_prefix_head : forall o x s, hd 0 o = 92 -> o <> [] -> x <> 92 -> ~ prefix o (x :: s).
Proof. intros [|y o] x s H Hn Hx [r E]; [congruence|]. cbn in E, H. injection E as -> _. congruence. Qed.

Lemma contains_tail : forall p x s, contains p s -> contains p (x :: s).
Proof. intros p x s (a & b & ->). exists (x :: a), b. reflexivity. Qed.

Lemma contains_more : forall p a s, contains p s -> contains p (a ++ s).
Proof. intros p a s (b & c & ->). exists (a ++ b), c. rewrite <- app_assoc. reflexivity. Qed.
Lemma contains_less : forall p a s, contains p a -> contains p (a ++ s).
Proof. intros p a s (b & c & ->). exists b, (c ++ s). rewrite <- !app_assoc. reflexivity. Qed.

Lemma plain_enclosed : forall o c, hd 0 o = 92 -> hd 0 c = 92 -> o <> [] -> c <> [] -> Forall letter (tl o) -> Forall letter (tl c) ->
  forall g, balanced 123 125 g -> ~ contains o g -> ~ contains c g ->
  forall t a r, nonletter_head t -> enclosed o c t a r -> enclosed o c (g ++ t) (g ++ a) r.
Proof.
  intros o c Ho Hc No Nc Lo Lc g H. induction H as [|x s H1 H2 H3 H4 H5 IH|x s H IH|u s H1 H2 IH|g s H1 IH1 H2 IH2]; intros Co Cc t a r Ht He.
  - exact He.
  - cbn. apply enc_char; [exact H1|exact H2|apply not_prefix_head; assumption|apply not_prefix_head; assumption|].
    apply IH; [intros X; apply Co; apply contains_tail, X|intros X; apply Cc; apply contains_tail, X|exact Ht|exact He].
  - cbn. apply enc_escape.
    + intros X. apply (prefix_app o (92 :: x :: s) t Lo) in X; [|cbn; lia|exact Ht]. apply Co. destruct X as [y E]. exists [], y. exact E.
    + intros X. apply (prefix_app c (92 :: x :: s) t Lc) in X; [|cbn; lia|exact Ht]. apply Cc. destruct X as [y E]. exists [], y. exact E.
    + apply IH; [intros X; apply Co; do 2 apply contains_tail; exact X|intros X; apply Cc; do 2 apply contains_tail; exact X|exact Ht|exact He].
  - cbn [app]. rewrite <- !app_assoc. cbn [app]. apply enc_comment; [exact H1|]. apply IH; [| |exact Ht|exact He].
    + intros X. apply Co. apply contains_tail, contains_more, contains_tail, X.
    + intros X. apply Cc. apply contains_tail, contains_more, contains_tail, X.
  - cbn [app]. rewrite <- !app_assoc. cbn [app]. apply enc_char; [discriminate|discriminate|apply not_prefix_head; (assumption || discriminate)|apply not_prefix_head; (assumption || discriminate)|].
    apply IH1.
    + intros X. apply Co. apply contains_tail, contains_less, X.
    + intros X. apply Cc. apply contains_tail, contains_less, X.
    + cbn. unfold letter. lia.
    + apply enc_char; [discriminate|discriminate|apply not_prefix_head; (assumption || discriminate)|apply not_prefix_head; (assumption || discriminate)|].
      apply IH2; [| |exact Ht|exact He].
      * intros X. apply Co. apply contains_tail, contains_more, contains_tail, X.
      * intros X. apply Cc. apply contains_tail, contains_more, contains_tail, X.
Qed.

Ltac letters := repeat (first [apply Forall_nil | apply Forall_cons; [unfold letter; lia|]]).

Lemma left_right : forall s0 s o g es s' c r, control (lit "left") s0 s -> delimiter_opt s o (g ++ right_str ++ s') ->
  delimiter_opt s' c r -> balanced 123 125 g -> ~ contains left_str g -> ~ contains right_str g ->
  parses g (map ItEvent es) -> defines_nothing g -> ~ starts 94 r -> ~ starts 95 r ->
  continues s0 (EvBegin (GLeftRight o c) :: es ++ [EvEnd]) r.
Proof.
  intros s0 s o g es s' c r H0 Ho Hc Hb Hl Hr Hp Hd R1 R2. apply element_continues, plain_element; [|assumption..].
  apply (N_left false [] s0 s o g s' c es r); [constructor|exact H0|exact Ho| |exact Hc|apply parsed_text; assumption].
  rewrite <- (app_nil_r g) at 2. apply plain_enclosed; try reflexivity; try discriminate; try assumption.
  - change (lit "\left") with ([92; 108; 101; 102; 116] : str). cbn. letters.
  - change (lit "\right") with ([92; 114; 105; 103; 104; 116] : str). cbn. letters.
  - cbn. unfold letter. lia.
  - apply enc_close.
Qed.

(** ** [\text] and [\operatorname] *)

Lemma text_exact : forall cs f s0 w x r, control cs s0 (w ++ 123 :: x ++ 125 :: r) -> In (cs, f) text_commands -> white w ->
  balanced 123 125 x -> ~ starts 94 r -> ~ starts 95 r -> continues s0 (text_meaning f x) r.
Proof.
  intros cs f s0 w x r H0 Hi Hw Hx R1 R2. apply element_continues, plain_element; [|assumption..].
  apply (N_text false [] cs s0 f w x r); [constructor|assumption..].
Qed.

Lemma operator_exact : forall s0 w x r, control (lit "operatorname") s0 (w ++ 123 :: x ++ 125 :: r) -> white w ->
  balanced 123 125 x -> no_modifier r -> ~ starts 94 r -> ~ starts 95 r -> continues s0 [EvContent (CFunction x)] r.
Proof.
  intros s0 w x r H0 Hw Hx Hm R1 R2. apply element_continues. eapply I_nucleus; [apply (N_operator false [] s0 w x r); [constructor|assumption..]| |apply S_none; assumption].
  unfold placed. cbn [fst]. apply M_none, Hm.
Qed.

(** ** Environments *)

Lemma environment_exact : forall t w name s e s1 ls s2 g es r, control (lit "begin") t (w ++ 123 :: name ++ 125 :: s) -> white w ->
  env_args name s e s1 -> lines s1 ls s2 -> enclosed (begin_of name) (end_of name) s2 g r ->
  parses_in (Some (0, v_marks e)) g es -> defines_nothing g -> ~ starts 94 r -> ~ starts 95 r ->
  continues t (env_events e ls es) r.
Proof.
  intros t w name s e s1 ls s2 g es r Hc Hw Ha Hl He Hp Hd R1 R2. apply element_continues, plain_element; [|assumption..].
  apply (N_env false [] t w name s e s1 ls s2 g es r); try assumption; [constructor|]. apply F_known. split; assumption.
Qed.

(** ** The depth of calls *)

Definition roots (n : nat) : str := concat (repeat (lit "\sqrt") n) ++ [49].

Lemma roots_S : forall n, roots (S n) = lit "\sqrt" ++ roots n.
Proof. intros n. unfold roots. cbn [repeat concat]. rewrite <- app_assoc. reflexivity. Qed.

Lemma roots_head : forall n, exists c t, roots n = c :: t /\ (c = 92 \/ c = 49).
Proof. intros [|n]; [exists 49, []; auto|]. rewrite roots_S. exists 92, (lit "sqrt" ++ roots n). auto. Qed.

Lemma roots_arg : forall n st, stxt (i_content st) = roots (S n) ->
  exists c, argc st = (Ok (SCs (lit "sqrt")), set_content c st) /\ stxt c = roots n.
Proof.
  intros n st H. destruct (roots_head n) as (x & t & E & Hx). rewrite roots_S, E in H.
  unfold argc, arg_slice. rewrite H, E. exists (suffix_slice (i_content st) (x :: t)).
  destruct Hx; subst x; (split; [reflexivity|reflexivity]).
Qed.

Lemma roots_deep : forall n m st, (n <= m)%nat -> stxt (i_content st) = roots m -> fst (hprim n (lit "sqrt") st) = Fuel.
Proof.
  induction n as [|n IH]; intros m st Hm Hs; [reflexivity|]. destruct m as [|m]; [lia|].
  cbn [hprim]. unfold hprim_body. replace (lookup_prim (lit "sqrt")) with PSqrt by (vm_compute; reflexivity).
  destruct (optc_none st) as (c & H1 & H2).
  { rewrite Hs. intros (w & r & Hw & E). destruct (roots_head (S m)) as (x & t & Ex & Hx). rewrite Ex in E.
    destruct w as [|y w]; cbn in E; injection E as -> _; destruct Hx; subst; try discriminate; cbn in Hw; discriminate. }
  rewrite (bind_ok _ _ _ _ _ _ _ H1). cbn iota beta. erewrite bind_ok; [|reflexivity].
  match goal with |- fst (bind _ _ ?s1) = _ => destruct (roots_arg m s1) as (c1 & H3 & H4) end; [cbn; rewrite H2; exact Hs|].
  rewrite (bind_ok _ _ _ _ _ _ _ H3). cbn [handle_arg]. erewrite bind_ok; [|reflexivity]. apply (IH m); [lia|exact H4].
Qed.

Lemma handle_prim_ends : forall cs st, fst (hprim (S (List.length (stxt (i_content st)))) cs st) <> Fuel.
Proof.
  intros cs st. pose proof (t_handle_prim cs (slen (i_content st)) (weight (i_buf st)) _ (le_n _) st) as H.
  unfold handle_prim in H. assert (Hb : bounded (slen (i_content st)) (weight (i_buf st)) st) by (split; [apply le_n|reflexivity]).
  specialize (H Hb). intros E. destruct (hprim _ cs st) as [r st']. cbn in E. subst r. exact H.
Qed.

(** ** Characters and groups *)

Lemma ascii_continues : forall c r, 33 <= c < 127 -> special c = false -> ~ starts 94 r -> ~ starts 95 r ->
  continues (c :: r) [match find (fun p => fst p =? c) ascii_meaning with Some p => snd p | None => ord c end] r.
Proof.
  intros c r Hc Hs R1 R2.
  assert (E : char_meaning c = match find (fun p => fst p =? c) ascii_meaning with Some p => snd p | None => ord c end).
  { assert (Hall : forallb (fun n => match find (fun p => fst p =? N.of_nat n) ascii_meaning with Some _ => true | None => special (N.of_nat n) ||
        negb (is_binary (N.of_nat n)) && negb (is_relation (N.of_nat n)) && match assoc_char (N.of_nat n) char_delims with None => true | _ => false end end)
      (seq 33 94) = true) by (vm_compute; reflexivity).
    rewrite forallb_forall in Hall. specialize (Hall (N.to_nat c)). rewrite N2Nat.id in Hall. unfold char_meaning.
    assert (Hin : In (N.to_nat c) (seq 33 94)) by (apply in_seq; lia). specialize (Hall Hin).
    destruct (find _ ascii_meaning) as [[x e]|]; [reflexivity|]. rewrite Hs in Hall. cbn [orb] in Hall. apply andb_prop in Hall as [H1 H2]. apply andb_prop in H1 as [H0 H1].
    destruct (is_binary c); [discriminate|]. destruct (is_relation c); [discriminate|]. destruct (assoc_char c char_delims); [discriminate|reflexivity]. }
  rewrite <- E. apply element_continues, plain_element; [|assumption..]. apply (N_char false [] c r); [constructor|exact Hs].
Qed.

Lemma group_continues : forall g es r, balanced 123 125 g -> parses g (map ItEvent es) -> defines_nothing g ->
  ~ starts 94 r -> ~ starts 95 r -> continues (123 :: g ++ 125 :: r) (EvBegin GNormal :: es ++ [EvEnd]) r.
Proof.
  intros g es r H1 H2 H3 R1 R2. apply element_continues, plain_element; [|assumption..]. apply group_nucleus; assumption.
Qed.

(** ** White space *)

(** White space before the first script changes nothing. *)
Lemma space_before_script : forall x es l c w u a r, c = 94 \/ c = 95 -> white w -> as_base x es l ->
  nucleus false (x ++ w ++ c :: u) es l (w ++ c :: u) -> nucleus true u a no_limits r -> no_script r ->
  let e := EvScript (if c =? 94 then STSup else STSub) (default_position l) :: es ++ a in
  continues (x ++ c :: u) e r /\ continues (x ++ w ++ c :: u) e r.
Proof.
  intros x es l c w u a r Hc Hw Hx Hx' Hu Hr e.
  assert (Hp : placed l (w ++ c :: u) (default_position l) (w ++ c :: u)).
  { destruct l as [[] d]; unfold placed, default_position; cbn [fst snd]; [|auto]. apply M_none. intros w0 r0 Hw0.
    assert (Hcw : is_ws c = false) by (destruct Hc; subst; reflexivity).
    split; intros E; pose proof (f_equal trim_start E) as E'; rewrite (white_split w) in E' by (try exact Hw; cbn; congruence);
      rewrite (white_split w0) in E' by (try exact Hw0; cbn; discriminate); destruct Hc; subst; discriminate. }
  split; apply element_continues; eapply I_nucleus; [apply Hx, Hc|apply mark_placed, Hc| |exact Hx'|exact Hp|]; unfold e; destruct Hc; subst c.
  - apply (S_sup _ es [] u); auto. reflexivity.
  - apply (S_sub _ es [] u); auto. reflexivity.
  - apply S_sup; auto.
  - apply S_sub; auto.
Qed.
