(** * DrawHole: groups of a stream are nodes of its trees. *)

From Coq Require Import List Arith NArith ZArith Bool Lia.
From Verif Require Import Base Float32 Event Tables Prim Spans SpecEvent SpecStream SpecDraw DrawTrees DrawFacts DrawScope.
Import ListNotations.
Open Scope N_scope.
Open Scope list_scope.

(** ** Frames *)

Lemma done_under : forall A B F, done A = Some B -> done (A ++ F) = Some (B ++ F).
Proof.
  induction A as [|[s r|[|[|n]]] A IH]; intros B F H; cbn [done app] in *; try discriminate.
  - injection H as <-. reflexivity.
  - apply IH, H.
  - injection H as <-. reflexivity.
Qed.
Lemma feed_under : forall A B F e, feed A e = Some B -> feed (A ++ F) e = Some (B ++ F).
Proof.
  intros A B F e H.
  assert (Ho : forall f, SpecEvent.open A f = Some B -> SpecEvent.open (A ++ F) f = Some (B ++ F)).
  { intros f Hf. unfold SpecEvent.open in *. destruct (done A) as [D|] eqn:E; [|discriminate]. rewrite (done_under A D F E). injection Hf as <-. reflexivity. }
  destruct e as [c|g| |v|ty pos|w h d|c|f]; cbn [feed] in *; try (apply done_under, H); try (apply Ho, H).
  - destruct A as [|[s r|n] A]; try discriminate. cbn [app]. apply done_under, H.
  - destruct A as [|[s r|n] A]; try discriminate; cbn [app].
    + injection H as <-. reflexivity.
    + apply (done_under (Need n :: A)), H.
  - destruct A as [|[s [[c m]|]|n] A]; try discriminate. cbn [app]. destruct f as [|d ls|ls].
    + destruct (c <? m); [|discriminate]. injection H as <-. reflexivity.
    + injection H as <-. reflexivity.
    + destruct s; [|discriminate]. injection H as <-. reflexivity.
Qed.
Lemma feeds_under : forall es A B F, feeds A es = Some B -> feeds (A ++ F) es = Some (B ++ F).
Proof.
  induction es as [|e es IH]; intros A B F H; cbn [feeds] in *; [congruence|]. destruct (feed A e) as [A1|] eqn:E; [|discriminate]. rewrite (feed_under A A1 F e E). apply IH, H.
Qed.
Lemma feeds_app : forall a b F, feeds F (a ++ b) = match feeds F a with Some F1 => feeds F1 b | None => None end.
Proof. induction a as [|e a IH]; intros b F; [reflexivity|]. cbn [app feeds]. destruct (feed F e); [apply IH|reflexivity]. Qed.

(** A group with a body of the documented shape counts as one element. *)
Lemma group_feeds : forall g b F, marks g = None -> well_formed b -> feeds F (EvBegin g :: b ++ [EvEnd]) = done F.
Proof.
  intros g b F Hg (s & Hb). cbn [feeds feed]. unfold SpecEvent.open. destruct (done F) as [F1|] eqn:E; [|reflexivity]. rewrite Hg. cbn [option_map].
  rewrite feeds_app. pose proof (feeds_under b _ _ F Hb) as H. change (start_frames ++ F) with (Body true None :: F) in H. rewrite H. cbn [app feeds feed]. rewrite E. reflexivity.
Qed.
Lemma group_swap : forall g b z pre post, marks g = None -> well_formed b ->
  (well_formed (pre ++ EvBegin g :: b ++ EvEnd :: post) <-> well_formed (pre ++ EvContent z :: post)).
Proof.
  intros g b z pre post Hg Hb. unfold well_formed.
  assert (E : feeds start_frames (pre ++ EvBegin g :: b ++ EvEnd :: post) = feeds start_frames (pre ++ EvContent z :: post)).
  { replace (pre ++ EvBegin g :: b ++ EvEnd :: post) with (pre ++ (EvBegin g :: b ++ [EvEnd]) ++ post) by (cbn [app]; rewrite <- app_assoc; reflexivity).
    rewrite !(feeds_app pre). destruct (feeds start_frames pre) as [F|]; [|reflexivity]. rewrite feeds_app, (group_feeds g b F Hg Hb). cbn [feeds feed]. reflexivity. }
  rewrite E. reflexivity.
Qed.

(** ** A node and what is around it *)

Lemma inside_plug : forall t ts, inside t ts -> exists l C r, ts = l ++ plug C t :: r.
Proof.
  intros t ts H. induction H as [ts H|u ts H H1 IH].
  - apply in_split in H as (l & r & ->). exists l, CHere, r. reflexivity.
  - apply in_split in H as (l & r & ->).
    assert (G : exists C, u = plug C t); [|destruct G as [C ->]; exists l, C, r; reflexivity].
    destruct u as [c|w h d|c|ls|cs body|a b cs body|g lines rows breaks|v ts|ty pos ts]; cbn [children] in *; try (inversion H1 as [? H2|? ? H2]; destruct H2).
    + destruct IH as (l1 & C & r1 & ->). exists (CGroup cs l1 C r1). reflexivity.
    + destruct IH as (l1 & C & r1 & ->). exists (CFenced a b cs l1 C r1). reflexivity.
    + destruct IH as (l1 & C & r1 & E). clear H1.
      assert (S1 : forall (L : list (list tree)) l1 x r1, concat L = l1 ++ x :: r1 -> exists A m n B, L = A ++ (m ++ x :: n) :: B).
      { clear. induction L as [|y L IH]; intros l1 x r1 H; [destruct l1; discriminate|]. cbn [concat] in H.
        assert (K : (exists n, y = l1 ++ x :: n) \/ exists l2, concat L = l2 ++ x :: r1).
        { revert l1 H. induction y as [|z y IHy]; intros l1 H; [right; eauto|]. destruct l1 as [|z' l1]; cbn in H; injection H as -> H; [left; exists y; reflexivity|].
          destruct (IHy l1 H) as [[n ->]|[l2 E]]; [left; exists n; reflexivity|right; eauto]. }
        destruct K as [[n ->]|[l2 E]]; [exists [], l1, n, L; reflexivity|]. destruct (IH l2 x r1 E) as (A & m & n & B & ->). exists (y :: A), m, n, B. reflexivity. }
      destruct (S1 _ _ _ _ E) as (A & m & n & B & E1). clear E.
      assert (S2 : forall (L : list (list (list tree))) A x B, concat L = A ++ x :: B -> exists P Q R Z, L = P ++ (Q ++ x :: R) :: Z).
      { clear. induction L as [|y L IH]; intros l1 x r1 H; [destruct l1; discriminate|]. cbn [concat] in H.
        assert (K : (exists n, y = l1 ++ x :: n) \/ exists l2, concat L = l2 ++ x :: r1).
        { revert l1 H. induction y as [|z y IHy]; intros l1 H; [right; eauto|]. destruct l1 as [|z' l1]; cbn in H; injection H as -> H; [left; exists y; reflexivity|].
          destruct (IHy l1 H) as [[n ->]|[l2 E]]; [left; exists n; reflexivity|right; eauto]. }
        destruct K as [[n ->]|[l2 E]]; [exists [], l1, n, L; reflexivity|]. destruct (IH l2 x r1 E) as (A & m & n & B & ->). exists (y :: A), m, n, B. reflexivity. }
      destruct (S2 _ _ _ _ E1) as (P & Q & R & Z & ->). exists (CTable g lines P Q m C n R Z breaks). reflexivity.
    + destruct IH as (l1 & C & r1 & ->). exists (CVisual v l1 C r1). reflexivity.
    + destruct IH as (l1 & C & r1 & ->). exists (CScript ty pos l1 C r1). reflexivity.
Qed.

Lemma between_hole : forall l a r seps, (length (l ++ a :: r) <= S (length seps))%nat -> exists A B, forall x, between (l ++ x :: r) seps = A ++ x ++ B.
Proof.
  induction l as [|y l IH]; intros a r seps Hl; cbn [app] in *.
  - destruct seps as [|s seps]; [exists [], []; intros x; cbn; rewrite app_nil_r; reflexivity|]. exists [], (s ++ between r seps). reflexivity.
  - destruct seps as [|s seps]; [cbn in Hl; rewrite app_length in Hl; cbn in Hl; lia|]. cbn [length] in Hl.
    destruct (IH a r seps ltac:(lia)) as (A & B & H). exists (y ++ s ++ A), B. intros x. cbn [between]. rewrite H, <- !app_assoc. reflexivity.
Qed.
Lemma list_events : forall l r, exists A B, forall t, all_events (l ++ t :: r) = A ++ events t ++ B.
Proof. intros l r. exists (all_events l), (all_events r). intros t. rewrite all_events_app, all_events_cons. reflexivity. Qed.
Lemma plug_events : forall C t0, proper (plug C t0) = true -> exists A B, forall t, events (plug C t) = A ++ events t ++ B.
Proof.
  assert (L : forall l r (f : tree -> tree), (exists A B, forall t, events (f t) = A ++ events t ++ B) -> exists A B, forall t, all_events (l ++ f t :: r) = A ++ events t ++ B).
  { intros l r f (A & B & H). destruct (list_events l r) as (A' & B' & H'). exists (A' ++ A), (B ++ B'). intros t. rewrite H', H, <- !app_assoc. reflexivity. }
  intros C t0. induction C as [|cs l C IH r|a b cs l C IH r|g lines above before l C IH r behind below breaks|v l C IH r|ty pos l C IH r]; intros Hp.
  2,3,4,5,6: match goal with Hp : proper (plug ?X ?G) = true |- _ => pose proof (proper_children _ _ Hp (plug_child X G)) as Hq end; specialize (IH Hq).
  - exists [], []. intros t. cbn. rewrite app_nil_r. reflexivity.
  - destruct (L l r _ IH) as (A & B & H). exists (EvBegin GNormal :: map EvState cs ++ A), (B ++ [EvEnd]). intros t. cbn [plug events]. fold (all_events (l ++ plug C t :: r)). rewrite H. cbn [app]. rewrite <- !app_assoc. reflexivity.
  - destruct (L l r _ IH) as (A & B & H). exists (EvBegin (GLeftRight a b) :: map EvState cs ++ A), (B ++ [EvEnd]). intros t. cbn [plug events]. fold (all_events (l ++ plug C t :: r)). rewrite H. cbn [app]. rewrite <- !app_assoc. reflexivity.
  - destruct (L l r _ IH) as (A & B & H).
    cbn [plug proper] in Hp. apply andb_prop in Hp as [Hp _]. unfold table_ok in Hp. destruct (marks g); [|discriminate]. apply andb_prop in Hp as [Hp _]. apply andb_prop in Hp as [_ Hp]. apply Nat.eqb_eq in Hp.
    destruct (between_hole (map (fun cell => flat_map events cell) before) [] (map (fun cell => flat_map events cell) behind) (map (fun _ => [EvFlow EFAlignment]) (tl (map (fun cell => flat_map events cell) (before ++ [] :: behind))))) as (A1 & B1 & H1).
    { rewrite map_length, app_length, !map_length. cbn [length]. rewrite map_length. destruct before; cbn [app map tl length]; rewrite ?map_length, ?app_length; cbn [length]; lia. }
    destruct (between_hole (map (fun row => row_events (map (fun cell => flat_map events cell) row)) above) [] (map (fun row => row_events (map (fun cell => flat_map events cell) row)) below) (map break_event breaks)) as (A2 & B2 & H2).
    { rewrite app_length, !map_length. cbn [length]. rewrite map_length, app_length in *. cbn [length] in Hp. lia. }
    exists (EvBegin g :: match lines with Some ls => [EvFlow (EFStartLines ls)] | None => [] end ++ A2 ++ A1 ++ A), (B ++ B1 ++ B2 ++ [EvEnd]). intros t. cbn [plug events]. rewrite map_app. cbn [map]. rewrite H2. rewrite map_app. cbn [map]. fold (all_events (l ++ plug C t :: r)). rewrite H.
    unfold row_events. replace (map (fun _ : list event => [EvFlow EFAlignment]) (tl (map (fun cell => flat_map events cell) before ++ (A ++ events t ++ B) :: map (fun cell => flat_map events cell) behind))) with
      (map (fun _ : list event => [EvFlow EFAlignment]) (tl (map (fun cell => flat_map events cell) (before ++ [] :: behind)))).
    2:{ rewrite map_app. cbn [map]. destruct before as [|b0 before]; [reflexivity|]. cbn [map app tl]. rewrite !map_app. reflexivity. }
    rewrite H1. cbn [app]. rewrite <- !app_assoc. reflexivity.
  - destruct (L l r _ IH) as (A & B & H). exists (EvVisual v :: A), B. intros t. cbn [plug events]. fold (all_events (l ++ plug C t :: r)). rewrite H. reflexivity.
  - destruct (L l r _ IH) as (A & B & H). exists (EvScript ty pos :: A), B. intros t. cbn [plug events]. fold (all_events (l ++ plug C t :: r)). rewrite H. reflexivity.
Qed.

(** Another node in the same place is as proper, if it is not one of those that
    belong to what they start. *)
Definition settled (t : tree) : bool := match t with TState _ | TLost _ => false | _ => true end.
Lemma plug_settled : forall C t, settled t = true -> settled (plug C t) = true.
Proof. intros [] t H; try reflexivity. exact H. Qed.
Lemma list_proper : forall l a b r, proper b = true -> forallb proper (l ++ a :: r) = true -> forallb proper (l ++ b :: r) = true.
Proof. intros l a b r Hb H. rewrite forallb_app in *. cbn [forallb] in *. apply andb_prop in H as [H1 H2]. apply andb_prop in H2 as [_ H2]. rewrite H1, H2, Hb. reflexivity. Qed.
Lemma plug_proper : forall C t t', settled t = true -> settled t' = true -> proper t' = true -> proper (plug C t) = true -> proper (plug C t') = true.
Proof.
  intros C t t' Hs Hs' Ht'. 
  assert (Sc : forall l a b r, settled a = true -> settled b = true -> starts_changing (l ++ a :: r) = starts_changing (l ++ b :: r)).
  { intros [|x l] a b r Ha Hb; [|reflexivity]. cbn. destruct a, b; try discriminate; reflexivity. }
  assert (Sl : forall l a b r, settled a = true -> settled b = true -> starts_lost (l ++ a :: r) = starts_lost (l ++ b :: r)).
  { intros [|x l] a b r Ha Hb; [|reflexivity]. cbn. destruct a, b; try discriminate; reflexivity. }
  induction C as [|cs l C IH r|a b cs l C IH r|g lines above before l C IH r behind below breaks|v l C IH r|ty pos l C IH r]; intros Hp.
  2,3,4,5,6: match goal with Hp : proper (plug ?X ?G) = true |- _ => pose proof (proper_children _ _ Hp (plug_child X G)) as Hq end; specialize (IH Hq).
  - exact Ht'.
  - cbn [plug proper] in *. apply andb_prop in Hp as [H1 H2]. rewrite (Sc l (plug C t') (plug C t) r) by (apply plug_settled; assumption). rewrite H1. apply (list_proper l (plug C t)); assumption.
  - cbn [plug proper] in *. apply andb_prop in Hp as [H1 H2]. rewrite (Sc l (plug C t') (plug C t) r) by (apply plug_settled; assumption). rewrite H1. apply (list_proper l (plug C t)); assumption.
  - cbn [plug proper] in *. apply andb_prop in Hp as [H1 H2]. apply andb_true_intro. split.
    + unfold table_ok in *. destruct (marks g) as [m|]; [|discriminate]. apply andb_prop in H1 as [H1 H3]. apply andb_prop in H1 as [H1 H4]. apply andb_true_intro. split; [apply andb_true_intro; split|].
      * rewrite forallb_app in *. cbn [forallb] in *. apply andb_prop in H1 as [H1 H5]. apply andb_prop in H5 as [H5 H6]. rewrite H1, H6, andb_true_r. cbn [andb].
        destruct before as [|b0 before]; cbn [app row_ok] in *; [exact H5|]. rewrite app_length in *. exact H5.
      * rewrite app_length in *. exact H4.
      * destruct lines; [reflexivity|]. destruct above as [|a0 above]; cbn [app] in *; [|exact H3]. destruct before as [|b0 before]; cbn [app] in *; [|exact H3].
        rewrite (Sl l (plug C t') (plug C t) r) by (apply plug_settled; assumption). exact H3.
    + rewrite forallb_app in *. cbn [forallb] in *. apply andb_prop in H2 as [H2 H3]. apply andb_prop in H3 as [H3 H4]. rewrite H2, H4, andb_true_r. cbn [andb].
      rewrite forallb_app in *. cbn [forallb] in *. apply andb_prop in H3 as [H3 H5]. apply andb_prop in H5 as [H5 H6]. rewrite H3, H6, andb_true_r. cbn [andb]. apply (list_proper l (plug C t)); assumption.
  - cbn [plug proper] in *. apply andb_prop in Hp as [H1 H2]. rewrite app_length in *. cbn [length] in *. rewrite H1. apply (list_proper l (plug C t)); assumption.
  - cbn [plug proper] in *. apply andb_prop in Hp as [H1 H2]. rewrite app_length in *. cbn [length] in *. rewrite H1. apply (list_proper l (plug C t)); assumption.
Qed.

(** A content that is not among these events. *)
Definition size_of (e : event) : nat := match e with EvContent (CText s) => length s | _ => O end.
Lemma fresh_text : forall es, exists z, ~ In (EvContent (CText z)) es.
Proof.
  intros es. exists (repeat 120%N (S (list_max (map size_of es)))). intros H.
  assert (K : (size_of (EvContent (CText (repeat 120%N (S (list_max (map size_of es)))))) <= list_max (map size_of es))%nat).
  { pose proof (proj1 (list_max_le (map size_of es) (list_max (map size_of es))) (le_n _)) as F. rewrite Forall_forall in F. apply F. apply in_map. exact H. }
  cbn [size_of] in K. rewrite repeat_length in K. lia.
Qed.
Lemma split_once : forall (x : event) a b c d, a ++ x :: b = c ++ x :: d -> ~ In x c -> ~ In x d -> a = c /\ b = d.
Proof.
  induction a as [|y a IH]; intros b [|z c] d H Hc Hd; cbn [app] in H; pose proof (f_equal (hd x) H) as H1; pose proof (f_equal (@tl event) H) as H2; cbn [hd tl] in H1, H2.
  - auto.
  - exfalso. apply Hc. left. congruence.
  - exfalso. apply Hd. rewrite <- H2. apply in_or_app. right. left. reflexivity.
  - subst z. destruct (IH b c d H2 (fun h => Hc (or_intror h)) Hd) as [-> ->]. auto.
Qed.

(** The group of a stream and a body of the documented shape, as a node. *)
Definition group_node (g : grouping) (cs : list state_change) (body : list tree) : tree :=
  match g with GLeftRight a b => TFenced a b cs body | _ => TGroup cs body end.
Lemma group_tree : forall g b, marks g = None -> well_formed b -> exists t, events t = EvBegin g :: b ++ [EvEnd] /\ proper t = true /\
  is_enclosed (match g with GLeftRight _ _ => true | _ => false end) t = true.
Proof.
  intros g b Hg Hb. destruct (stream_trees b Hb) as (ts & <- & Hp). destruct (split_changes ts) as (cs & body & -> & Hc).
  rewrite forallb_app in Hp. apply andb_prop in Hp as [_ Hp]. rewrite all_events_app, changes_events, <- app_assoc. exists (group_node g cs body).
  destruct g; try discriminate Hg; cbn [group_node events proper is_enclosed]; rewrite Hc, Hp; repeat split; reflexivity.
Qed.

(** The place of a group in a stream. *)
Lemma group_place : forall pre g b post, marks g = None -> well_formed b -> well_formed (pre ++ EvBegin g :: b ++ EvEnd :: post) ->
  exists l C r, forall t, settled t = true -> proper t = true -> all_events (l ++ plug C t :: r) = pre ++ events t ++ post /\ forallb proper (l ++ plug C t :: r) = true.
Proof.
  intros pre g b post Hg Hb Hw. destruct (fresh_text (pre ++ post)) as [z Hz].
  assert (Hz1 : ~ In (EvContent (CText z)) pre) by (intros H; apply Hz, in_or_app; auto). assert (Hz2 : ~ In (EvContent (CText z)) post) by (intros H; apply Hz, in_or_app; auto).
  apply (group_swap g b (CText z) pre post Hg Hb) in Hw. destruct (stream_trees _ Hw) as (ts & He & Hp).
  assert (Hi : inside (TContent (CText z)) ts) by (apply event_inside; rewrite He; apply in_or_app; right; left; reflexivity).
  destruct (inside_plug _ _ Hi) as (l & C & r & ->). exists l, C, r. intros t Hs Ht.
  assert (HC : proper (plug C (TContent (CText z))) = true). { rewrite forallb_app in Hp. apply andb_prop in Hp as [_ Hp]. cbn [forallb] in Hp. apply andb_prop in Hp as [Hp _]. exact Hp. }
  destruct (plug_events C _ HC) as (A & B & H). rewrite all_events_app, all_events_cons, H in He. cbn [events app] in He. rewrite <- app_assoc in He. cbn [app] in He.
  rewrite app_assoc in He. destruct (split_once _ _ _ _ _ He Hz1 Hz2) as [E1 E2]. split.
  - rewrite all_events_app, all_events_cons, H, <- E1, <- E2, <- !app_assoc. reflexivity.
  - apply (list_proper l (plug C (TContent (CText z)))); [|exact Hp]. apply (plug_proper C (TContent (CText z))); try reflexivity; assumption.
Qed.
