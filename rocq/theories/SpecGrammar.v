(** * SpecGrammar: the documented shape of event streams, as a grammar, and its
    agreement with the checker of SpecEvent. *)

From Coq Require Import List NArith Bool Lia Arith.
From Verif Require Import Base Float32 Event SpecEvent.
Import ListNotations.
Open Scope N_scope.

(** State changes and horizontal lines at the top of an environment. *)
Definition top_lines (s : list event) : Prop :=
  s = [] \/ exists ss hl, s = (map EvState ss ++ [EvFlow (EFStartLines hl)])%list.

Inductive element : list event -> Prop :=
| el_content : forall c, element [EvContent c]
| el_space : forall w h d, element [EvSpace w h d]
| el_state : forall s, element [EvState s]
| el_group : forall g b, marks g = None -> elements b -> element (EvBegin g :: b ++ [EvEnd])
| el_env : forall g m s b, marks g = Some m -> top_lines s -> rows m 0 b ->
    element (EvBegin g :: s ++ b ++ [EvEnd])
| el_visual : forall v l, nelements (visual_arity v) l -> element (EvVisual v :: l)
| el_script : forall t p l, nelements (script_arity t) l -> element (EvScript t p :: l)
(** Any number of elements. *)
with elements : list event -> Prop :=
| els_nil : elements []
| els_cons : forall a b, element a -> elements b -> elements (a ++ b)
(** A given number of elements. *)
with nelements : nat -> list event -> Prop :=
| nel_nil : nelements 0 []
| nel_cons : forall n a b, element a -> nelements n b -> nelements (S n) (a ++ b)
(** The rest of the rows of an environment that allows [m] marks in a row, of
    which [c] were seen in this row. *)
with rows : N -> N -> list event -> Prop :=
| rows_nil : forall m c, rows m c []
| rows_element : forall m c a b, element a -> rows m c b -> rows m c (a ++ b)
| rows_mark : forall m c b, c < m -> rows m (c + 1) b -> rows m c (EvFlow EFAlignment :: b)
| rows_line : forall m c sp hl b, rows m 0 b -> rows m c (EvFlow (EFNewLine sp hl) :: b).

(** ** The checker accepts only streams of the grammar *)

Lemma feeds_app : forall a F b, feeds F (a ++ b) = match feeds F a with Some F' => feeds F' b | None => None end.
Proof. induction a as [|e a IH]; intros F b; [reflexivity|]. cbn [app feeds]. destruct (feed F e); [apply IH|reflexivity]. Qed.

Definition is_opener (e : event) : bool := match e with EvEnd | EvFlow _ => false | _ => true end.

(** What is said of lists shorter than [n]. *)
Definition P_elem (n : nat) : Prop := forall e l F F', (length l < n)%nat ->
  is_opener e = true -> feeds F (e :: l) = Some F' -> (length F' <= length F)%nat ->
  exists a b F2, l = (a ++ b)%list /\ element (e :: a) /\ feeds F2 b = Some F' /\
    (done F = Some F2 \/ exists s x r F0, e = EvState s /\ F = Body x r :: F0 /\ F2 = F).
Definition P_need (n : nat) : Prop := forall l k F F', (length l < n)%nat -> (0 < k)%nat ->
  feeds (Need k :: F) l = Some F' -> (length F' <= length F)%nat ->
  exists a b F1, l = (a ++ b)%list /\ nelements k a /\ done F = Some F1 /\ feeds F1 b = Some F'.
Definition P_body (n : nat) : Prop := forall l x F F', (length l < n)%nat ->
  feeds (Body x None :: F) l = Some F' -> (length F' <= length F)%nat ->
  exists a b F1, l = (a ++ EvEnd :: b)%list /\ elements a /\ done F = Some F1 /\ feeds F1 b = Some F'.
Definition P_rows (n : nat) : Prop := forall l x c m F F', (length l < n)%nat ->
  feeds (Body x (Some (c, m)) :: F) l = Some F' -> (length F' <= length F)%nat ->
  exists s a b F1, l = (s ++ a ++ EvEnd :: b)%list /\ top_lines s /\ (x = false -> s = []) /\ rows m c a /\
    done F = Some F1 /\ feeds F1 b = Some F'.

Lemma done_length : forall F F1, done F = Some F1 -> (length F1 <= length F)%nat.
Proof.
  induction F as [|[x r|[|[|k]]] F IH]; intros F1 H; try discriminate; cbn in H.
  - injection H as <-. cbn. lia.
  - apply IH in H. cbn. lia.
  - injection H as <-. cbn. lia.
Qed.

Lemma step_elem : forall n, P_need n -> P_body n -> P_rows n -> P_elem n.
Proof.
  intros n Hn Hb Hr e l F F' Hl He H Hlen. cbn [feeds] in H.
  assert (Hleaf : forall F1, done F = Some F1 -> feeds F1 l = Some F' -> element [e] ->
    exists a b F2, l = (a ++ b)%list /\ element (e :: a) /\ feeds F2 b = Some F' /\
    (done F = Some F2 \/ exists s x r F0, e = EvState s /\ F = Body x r :: F0 /\ F2 = F)).
  { intros F1 Hd Hf Hel. exists [], l, F1. auto. }
  assert (Hneed : forall k (Hk : (0 < k)%nat), (forall a, nelements k a -> element (e :: a)) -> feed F e = open F (Need k) ->
    exists a b F2, l = (a ++ b)%list /\ element (e :: a) /\ feeds F2 b = Some F' /\
    (done F = Some F2 \/ exists s x r F0, e = EvState s /\ F = Body x r :: F0 /\ F2 = F)).
  { intros k Hk Hel Ef. rewrite Ef in H. unfold open in H. destruct (done F) as [F1|] eqn:Ed; [|discriminate].
    destruct (Hn l k F F' Hl Hk H Hlen) as (a & b & F2 & -> & Ha & Hd & Hfb). exists a, b, F2.
    split; [reflexivity|]. split; [auto|]. split; [exact Hfb|]. left. congruence. }
  destruct e as [c|g| |v|t p|w h d|s|f]; try discriminate.
  - cbn [feed] in H. destruct (done F) as [F1|] eqn:Ed; [|discriminate]. eapply Hleaf; [reflexivity|exact H|constructor].
  - cbn [feed] in H. unfold open in H. destruct (done F) as [F1|] eqn:Ed; [|discriminate].
    destruct (marks g) as [m|] eqn:Em; cbn [option_map] in H.
    + destruct (Hr l true 0 m F F' Hl H Hlen) as (s & a & b & F2 & -> & Hs & _ & Ha & Hd & Hfb).
      exists (s ++ a ++ [EvEnd])%list, b, F2. split; [rewrite <- !app_assoc; reflexivity|].
      split; [eapply el_env; eassumption|]. split; [exact Hfb|]. left. congruence.
    + destruct (Hb l true F F' Hl H Hlen) as (a & b & F2 & -> & Ha & Hd & Hfb).
      exists (a ++ [EvEnd])%list, b, F2. split; [rewrite <- !app_assoc; reflexivity|].
      split; [apply el_group; assumption|]. split; [exact Hfb|]. left. congruence.
  - apply (Hneed (visual_arity v)); [destruct v; cbn; lia|intros; constructor; assumption|reflexivity].
  - apply (Hneed (script_arity t)); [destruct t; cbn; lia|intros; constructor; assumption|reflexivity].
  - cbn [feed] in H. destruct (done F) as [F1|] eqn:Ed; [|discriminate]. eapply Hleaf; [reflexivity|exact H|constructor].
  - cbn [feed] in H. destruct F as [|[x r|k] F0].
    + discriminate.
    + exists [], l, (Body x r :: F0). split; [reflexivity|]. split; [constructor|]. split; [exact H|].
      right. exists s, x, r, F0. auto.
    + destruct (done (Need k :: F0)) as [F1|] eqn:Ed; [|discriminate]. eapply Hleaf; [reflexivity|exact H|constructor].
Qed.

Lemma cons_split : forall (e : event) l a b, l = (a ++ b)%list -> e :: l = ((e :: a) ++ b)%list.
Proof. intros. subst. reflexivity. Qed.

Lemma all_parts : forall n, P_elem n /\ P_need n /\ P_body n /\ P_rows n.
Proof.
  induction n as [|n (IHe & IHn & IHb & IHr)].
  { repeat split; red; intros; lia. }
  assert (Hn : P_need (S n)).
  { intros l k F F' Hl Hk H Hlen. destruct l as [|e l]; [cbn in H; injection H as <-; cbn in Hlen; lia|]. cbn [length] in Hl.
    destruct (is_opener e) eqn:Eo.
    - destruct (IHe e l (Need k :: F) F') as (a & b & F2 & -> & Ha & Hb & [Hd|(s & x & r & F0 & _ & Hx & _)]);
        [lia|exact Eo|exact H|cbn; lia| |discriminate].
      destruct k as [|[|k]]; [lia| |].
      + exists (e :: a), b, F2. split; [reflexivity|]. split; [|auto]. rewrite <- (app_nil_r (e :: a)).
        constructor; [exact Ha|constructor].
      + cbn in Hd. injection Hd as <-. rewrite app_length in Hl.
        destruct (IHn b (S k) F F') as (a2 & b2 & F3 & -> & Ha2 & Hd2 & Hb2); [lia|lia|exact Hb|exact Hlen|].
        exists ((e :: a) ++ a2)%list, b2, F3. split; [cbn; rewrite <- app_assoc; reflexivity|].
        split; [constructor; assumption|auto].
    - exfalso. cbn [feeds] in H. destruct e; try discriminate. }
  assert (Hb : P_body (S n)).
  { intros l x F F' Hl H Hlen. destruct l as [|e l]; [cbn in H; injection H as <-; cbn in Hlen; lia|]. cbn [length] in Hl.
    destruct (is_opener e) eqn:Eo.
    - destruct (IHe e l (Body x None :: F) F') as (a & b & F2 & -> & Ha & Hfb & Hd);
        [lia|exact Eo|exact H|cbn; lia|]. rewrite app_length in Hl.
      assert (Hx : exists x', F2 = Body x' None :: F).
      { destruct Hd as [Hd|(s & y & r & F0 & _ & E & ->)]; [cbn in Hd; injection Hd as <-; eauto|eauto]. }
      destruct Hx as [x' ->].
      destruct (IHb b x' F F') as (a2 & b2 & F3 & -> & Ha2 & Hd2 & Hb2); [lia|exact Hfb|exact Hlen|].
      exists ((e :: a) ++ a2)%list, b2, F3. split; [cbn; rewrite <- app_assoc; reflexivity|].
      split; [constructor; assumption|auto].
    - cbn [feeds] in H. destruct e; try discriminate.
      cbn [feed] in H. destruct (done F) as [F1|] eqn:Ed; [|discriminate].
      exists [], l, F1. split; [reflexivity|]. split; [constructor|auto]. }
  assert (Hr : P_rows (S n)).
  { intros l x c m F F' Hl H Hlen. destruct l as [|e l]; [cbn in H; injection H as <-; cbn in Hlen; lia|]. cbn [length] in Hl.
    destruct (is_opener e) eqn:Eo.
    - destruct (IHe e l (Body x (Some (c, m)) :: F) F') as (a & b & F2 & -> & Ha & Hfb & Hd);
        [lia|exact Eo|exact H|cbn; lia|]. rewrite app_length in Hl.
      destruct Hd as [Hd|(s & y & r & F0 & -> & E & ->)].
      + cbn in Hd. injection Hd as <-.
        destruct (IHr b false c m F F') as (s & a2 & b2 & F3 & -> & Hs & Es & Ha2 & Hd2 & Hb2); [lia|exact Hfb|exact Hlen|].
        rewrite (Es eq_refl). exists [], ((e :: a) ++ a2)%list, b2, F3. cbn [app]. split; [rewrite <- app_assoc; reflexivity|].
        split; [left; reflexivity|]. split; [auto|]. split; [apply (rows_element m c (e :: a)); assumption|auto].
      + assert (Hax : a = []).
        { inversion Ha. reflexivity. }
        subst a. cbn [app] in *.
        destruct (IHr b x c m F F') as (s1 & a2 & b2 & F3 & -> & Hs & Es & Ha2 & Hd2 & Hb2); [lia|exact Hfb|exact Hlen|].
        destruct Hs as [->|(ss & hl & ->)].
        * exists [], (EvState s :: a2), b2, F3. split; [reflexivity|]. split; [left; reflexivity|]. split; [auto|].
          split; [apply (rows_element m c [EvState s]); [constructor|exact Ha2]|auto].
        * exists (map EvState (s :: ss) ++ [EvFlow (EFStartLines hl)])%list, a2, b2, F3. split; [reflexivity|].
          split; [right; eauto|]. split; [|auto]. intros Hx. specialize (Es Hx). destruct ss; discriminate.
    - cbn [feeds] in H. destruct e; try discriminate.
      + cbn [feed] in H. destruct (done F) as [F1|] eqn:Ed; [|discriminate].
        exists [], [], l, F1. split; [reflexivity|]. split; [left; reflexivity|]. split; [auto|]. split; [constructor|auto].
      + cbn [feed] in H. destruct f as [|sp hl|hl].
        * destruct (N.ltb_spec c m) as [Hc|]; [|discriminate].
          destruct (IHr l false (c + 1) m F F') as (s & a2 & b2 & F3 & -> & Hs & Es & Ha2 & Hd2 & Hb2); [lia|exact H|exact Hlen|].
          rewrite (Es eq_refl). exists [], (EvFlow EFAlignment :: a2), b2, F3. split; [reflexivity|].
          split; [left; reflexivity|]. split; [auto|]. split; [constructor; assumption|auto].
        * destruct (IHr l false 0 m F F') as (s & a2 & b2 & F3 & -> & Hs & Es & Ha2 & Hd2 & Hb2); [lia|exact H|exact Hlen|].
          rewrite (Es eq_refl). exists [], (EvFlow (EFNewLine sp hl) :: a2), b2, F3. split; [reflexivity|].
          split; [left; reflexivity|]. split; [auto|]. split; [constructor; assumption|auto].
        * destruct x; [|discriminate].
          destruct (IHr l false c m F F') as (s & a2 & b2 & F3 & -> & Hs & Es & Ha2 & Hd2 & Hb2); [lia|exact H|exact Hlen|].
          rewrite (Es eq_refl). exists [EvFlow (EFStartLines hl)], a2, b2, F3. split; [reflexivity|].
          split; [right; exists [], hl; reflexivity|]. split; [discriminate|auto]. }
  split; [apply step_elem; assumption|]. auto.
Qed.

Lemma checked_elements : forall n l x y, (length l < n)%nat -> feeds [Body x None] l = Some [Body y None] -> elements l.
Proof.
  induction n as [|n IH]; intros l x y Hl H; [lia|]. destruct l as [|e l]; [constructor|]. cbn [length] in Hl.
  destruct (is_opener e) eqn:Eo.
  - destruct (proj1 (all_parts n) e l [Body x None] [Body y None]) as (a & b & F2 & -> & Ha & Hfb & Hd);
      [lia|exact Eo|exact H|cbn; lia|]. rewrite app_length in Hl.
    assert (Hx : exists x', F2 = [Body x' None]).
    { destruct Hd as [Hd|(s & z & r & F0 & _ & E & ->)]; [cbn in Hd; injection Hd as <-; eauto|eauto]. }
    destruct Hx as [x' ->]. apply (els_cons (e :: a)); [exact Ha|]. eapply IH; [|exact Hfb]. lia.
  - cbn [feeds] in H. destruct e; discriminate.
Qed.

(** ** The checker accepts the grammar *)

Scheme element_mind := Induction for element Sort Prop
  with elements_mind := Induction for elements Sort Prop
  with nelements_mind := Induction for nelements Sort Prop
  with rows_mind := Induction for rows Sort Prop.
Combined Scheme grammar_ind from element_mind, elements_mind, nelements_mind, rows_mind.

(** The result of an element: [F1], or [F] itself after a state change. *)
Definition after (F F1 F2 : list frame) : Prop := F2 = F1 \/ (F2 = F /\ exists x r F0, F = Body x r :: F0).

Lemma states_feeds : forall ss x r F l, feeds (Body x r :: F) (map EvState ss ++ l) = feeds (Body x r :: F) l.
Proof. induction ss as [|s ss IH]; intros x r F l; [reflexivity|]. cbn [map app feeds feed]. apply IH. Qed.

Lemma grammar_checked :
  (forall l, element l -> forall F F1, done F = Some F1 -> exists F2, feeds F l = Some F2 /\ after F F1 F2) /\
  (forall l, elements l -> forall x r F, exists x', feeds (Body x r :: F) l = Some (Body x' r :: F)) /\
  (forall n l, nelements n l -> forall F F1, done F = Some F1 -> (0 < n)%nat -> feeds (Need n :: F) l = Some F1) /\
  (forall m c l, rows m c l -> forall x F, exists x' c', feeds (Body x (Some (c, m)) :: F) l = Some (Body x' (Some (c', m)) :: F)).
Proof.
  apply (grammar_ind
    (fun l _ => forall F F1, done F = Some F1 -> exists F2, feeds F l = Some F2 /\ after F F1 F2)
    (fun l _ => forall x r F, exists x', feeds (Body x r :: F) l = Some (Body x' r :: F))
    (fun n l _ => forall F F1, done F = Some F1 -> (0 < n)%nat -> feeds (Need n :: F) l = Some F1)
    (fun m c l _ => forall x F, exists x' c', feeds (Body x (Some (c, m)) :: F) l = Some (Body x' (Some (c', m)) :: F))).
  - intros c F F1 Hd. cbn [feeds feed]. rewrite Hd. exists F1. split; [reflexivity|left; reflexivity].
  - intros w h d F F1 Hd. cbn [feeds feed]. rewrite Hd. exists F1. split; [reflexivity|left; reflexivity].
  - intros s F F1 Hd. cbn [feeds feed]. destruct F as [|[x r|k] F0]; [discriminate| |].
    + eexists. split; [reflexivity|]. right. split; [reflexivity|eauto].
    + rewrite Hd. exists F1. split; [reflexivity|left; reflexivity].
  - intros g b Hm _ IH F F1 Hd. cbn [feeds feed]. rewrite Hm. cbn [option_map]. unfold open. rewrite Hd, feeds_app.
    destruct (IH true None F) as [x' ->]. cbn [feeds feed]. rewrite Hd. exists F1. split; [reflexivity|left; reflexivity].
  - intros g m s b Hm Hs _ IH F F1 Hd. cbn [feeds feed]. rewrite Hm. cbn [option_map]. unfold open. rewrite Hd.
    assert (Ht : exists x, feeds (Body true (Some (0, m)) :: F) s = Some (Body x (Some (0, m)) :: F)).
    { destruct Hs as [->|(ss & hl & ->)]; [exists true; reflexivity|]. exists false. rewrite states_feeds. reflexivity. }
    destruct Ht as [x Ht]. rewrite feeds_app, Ht, feeds_app. destruct (IH x F) as (x' & c' & ->). cbn [feeds feed]. rewrite Hd.
    exists F1. split; [reflexivity|left; reflexivity].
  - intros v l _ IH F F1 Hd. cbn [feeds feed]. unfold open. rewrite Hd. exists F1.
    split; [|left; reflexivity]. apply IH; [exact Hd|destruct v; cbn; lia].
  - intros t p l _ IH F F1 Hd. cbn [feeds feed]. unfold open. rewrite Hd. exists F1.
    split; [|left; reflexivity]. apply IH; [exact Hd|destruct t; cbn; lia].
  - intros x r F. exists x. reflexivity.
  - intros a b _ IHa _ IHb x r F. rewrite feeds_app.
    destruct (IHa (Body x r :: F) (Body false r :: F) eq_refl) as (F2 & -> & [->|[-> _]]); apply IHb.
  - intros F F1 Hd Hk. lia.
  - intros n a b _ IHa Hb IHb F F1 Hd _. rewrite feeds_app. destruct n as [|n].
    + inversion Hb; subst. destruct (IHa (Need 1 :: F) F1 Hd) as (F2 & -> & [->|[_ (x & r & F0 & E)]]); [reflexivity|discriminate].
    + destruct (IHa (Need (S (S n)) :: F) (Need (S n) :: F) eq_refl) as (F2 & -> & [->|[_ (x & r & F0 & E)]]); [|discriminate].
      apply IHb; [exact Hd|lia].
  - intros m c x F. exists x, c. reflexivity.
  - intros m c a b _ IHa _ IHb x F. rewrite feeds_app.
    destruct (IHa (Body x (Some (c, m)) :: F) (Body false (Some (c, m)) :: F) eq_refl) as (F2 & -> & [->|[-> _]]); apply IHb.
  - intros m c b Hc _ IH x F. cbn [feeds feed]. apply N.ltb_lt in Hc. rewrite Hc. apply IH.
  - intros m c sp hl b _ IH x F. cbn [feeds feed]. apply IH.
Qed.

(** The checker and the grammar agree on complete streams. *)
Theorem well_formed_grammar : forall l, well_formed l <-> elements l.
Proof.
  intros l. split.
  - intros [b H]. eapply (checked_elements (S (length l))); [lia|exact H].
  - intros H. destruct (proj1 (proj2 grammar_checked) l H true None []) as [x Hx]. exists x. exact Hx.
Qed.
