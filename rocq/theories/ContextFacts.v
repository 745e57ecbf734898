(** * ContextFacts: the context and the message of an error as SpecContext has them. *)

From Coq Require Import Ascii String List NArith Bool Lia Wf_nat.
From Verif Require Import Base Float32 Event Tables Lex Macros Primitives Spans Parser PrimFacts Api NoPanic ErrContext SpecContext SpecLex.
Import ListNotations.
Open Scope N_scope.
Open Scope list_scope.

Lemma ends_last : forall c l, ends_with_char c l = true -> exists x, l = x ++ [c].
Proof.
  intros c. induction l as [|d l IH]; intro H; [discriminate|]. destruct l as [|e l].
  - cbn in H. apply N.eqb_eq in H as ->. exists []. reflexivity.
  - apply IH in H as (x & ->). exists (d :: x). reflexivity.
Qed.
Lemma last_ends : forall c x, ends_with_char c (x ++ [c]) = true.
Proof.
  intros c. induction x as [|d x IH]; [cbn; apply N.eqb_refl|]. cbn [app]. destruct (x ++ [c]) eqn:E; [destruct x; discriminate|exact IH].
Qed.

Lemma lines_first : forall l r, ~ In 10 l -> lines_of (l ++ 10 :: r) = (l ++ [10]) :: lines_of r.
Proof.
  induction l as [|c l IH]; intros r H; cbn [app lines_of]; [reflexivity|].
  destruct (N.eqb_spec c 10) as [->|Hc]; [exfalso; apply H; now left|]. rewrite IH by (intro Q; apply H; now right). reflexivity.
Qed.
Lemma lines_only : forall l, l <> [] -> ~ In 10 l -> lines_of l = [l].
Proof.
  induction l as [|c l IH]; intros Hn H; [contradiction|]. cbn [lines_of].
  destruct (N.eqb_spec c 10) as [->|Hc]; [exfalso; apply H; now left|]. destruct l as [|d l]; [reflexivity|].
  rewrite IH; [reflexivity|discriminate|intro Q; apply H; now right].
Qed.

Lemma chomp_cut : forall l, return_cut l (chomp (l ++ [10])).
Proof.
  intro l. unfold chomp. rewrite last_ends. rewrite removelast_last. destruct (ends_with_char 13 l) eqn:E.
  - apply ends_last in E as (x & ->). rewrite removelast_last. now left.
  - right. split; [reflexivity|]. intros x ->. rewrite last_ends in E. discriminate.
Qed.
Lemma chomp_same : forall l, ~ In 10 l -> chomp l = l.
Proof.
  intros l H. unfold chomp. destruct (ends_with_char 10 l) eqn:E; [|reflexivity]. apply ends_last in E as (x & ->).
  exfalso. apply H. apply in_or_app. right. now left.
Qed.

Lemma first_newline : forall s : str, ~ In 10 s \/ exists l r, s = l ++ 10 :: r /\ ~ In 10 l.
Proof.
  induction s as [|c s IH]; [left; intros []|]. destruct (N.eq_dec c 10) as [->|Hc]; [right; exists [], s; split; [reflexivity|intros []]|].
  destruct IH as [H|(l & r & -> & H)]; [left; intros [Q|Q]; [now apply Hc|now apply H]|].
  right. exists (c :: l), r. split; [reflexivity|]. intros [Q|Q]; [now apply Hc|now apply H].
Qed.

Lemma lines_text : forall s, text_lines s (str_lines s).
Proof.
  intro s. remember (length s) as n eqn:En. revert s En. induction n as [n IH] using lt_wf_ind. intros s ->.
  destruct (first_newline s) as [H|(l & r & -> & H)].
  - destruct s as [|c s]; [constructor|]. unfold str_lines. rewrite lines_only by (assumption || discriminate). cbn [map].
    rewrite chomp_same by assumption. now constructor.
  - unfold str_lines. rewrite lines_first by assumption. cbn [map]. constructor; [assumption|apply chomp_cut|].
    eapply IH; [|reflexivity]. rewrite app_length. cbn. lia.
Qed.

Lemma return_cut_fun : forall l a b, return_cut l a -> return_cut l b -> a = b.
Proof.
  intros l a b [->|[-> Ha]] [E|[E Hb]]; subst; auto.
  - now apply app_inv_tail in E.
  - exfalso. now apply (Hb a).
  - exfalso. now apply (Ha b).
Qed.

Lemma newline_split : forall l l' r r' : str, ~ In 10 l -> ~ In 10 l' -> l ++ 10 :: r = l' ++ 10 :: r' -> l = l' /\ r = r'.
Proof.
  induction l as [|c l IH]; intros [|c' l'] r r' H H' E; cbn in E; injection E; clear E.
  - auto.
  - intros _ <-. exfalso. apply H'. now left.
  - intros _ ->. exfalso. apply H. now left.
  - intros E ->. destruct (IH l' r r') as [-> ->]; auto; intro Q; [apply H|apply H']; now right.
Qed.

Lemma text_lines_fun : forall s ls ls', text_lines s ls -> text_lines s ls' -> ls = ls'.
Proof.
  intros s ls ls' H. revert ls'. induction H as [|l Hl Hn|l l1 r ls Hn Hc Hr IH]; intros ls' H'.
  - inversion H' as [|l1 A B|l1 l2 r2 ls2 A B C D]; subst; [reflexivity|contradiction|]. destruct l1; discriminate.
  - inversion H' as [|l1 A B|l1 l2 r2 ls2 A B C D]; subst; [contradiction|reflexivity|]. exfalso. apply Hn. apply in_or_app. right. now left.
  - inversion H' as [E|l2 A B E|l2 l3 r2 ls2 A B C E].
    + destruct l; discriminate.
    + exfalso. apply B. apply in_or_app. right. now left.
    + apply newline_split in E as [-> ->]; auto. rewrite (return_cut_fun _ _ _ Hc B). f_equal. now apply IH.
Qed.

(** ** The frame *)

Lemma stacked_cons : forall r rows, rows <> [] -> stacked (r :: rows) = r ++ 10 :: stacked rows.
Proof. intros r [|x rows] H; [contradiction|reflexivity]. Qed.
Lemma stacked_app : forall rows a b, stacked (rows ++ [a; b]) = flat_map (fun r => r ++ [10]) rows ++ a ++ 10 :: b.
Proof.
  induction rows as [|r rows IH]; intros a b; [reflexivity|]. cbn [app flat_map]. rewrite stacked_cons by (destruct rows; discriminate).
  rewrite IH, <- !app_assoc. reflexivity.
Qed.

Lemma framed_is : forall q cut, context_prefix ++ context_str q true cut = framed cut (str_lines q).
Proof.
  intros q cut. unfold framed. rewrite app_assoc, stacked_app. unfold context_str, context_prefix. set (ls := str_lines q). set (n := N.to_nat _).
  cbn [app flat_map title]. rewrite <- !app_assoc. cbn [app]. do 13 f_equal. destruct ls as [|l ls]; [cbn; rewrite <- ?app_assoc; reflexivity|].
  cbn [quoted flat_map app]. rewrite <- !app_assoc. cbn [app]. destruct cut; do 2 f_equal; f_equal; f_equal.
  all: rewrite flat_map_concat_map, (flat_map_concat_map _ (map _ _)), map_map; cbn [app]; reflexivity.
Qed.

(** The context of an error without definitions. *)
Lemma error_framed : forall input n l p pe p', defines_nothing input -> run n (new_parser input) = (l, OFuel, p) -> next_step p = (OItem (ItError pe), p') ->
  exists rest al s a q b ls, p_stack p' = ISub rest al :: s /\ contains (stxt rest) input /\ input = a ++ q ++ b /\
    blen a <= soff rest <= blen a + 15 /\ soff rest <= blen a + blen q <= soff rest + 12 /\
    (b <> [] -> soff rest + 9 <= blen a + blen q) /\
    (exists before, exists after, input = before ++ stxt rest ++ after /\ blen before = soff rest) /\
    text_lines q ls /\ exists cut, pe_context pe = framed cut ls /\ (cut = true <-> a <> []).
Proof.
  intros input n l p pe p' Hd Hr Hs. destruct (error_window input n l p pe p' Hd Hr Hs) as (rest & al & s & a & q & b & H1 & H2 & H3 & H4 & H5 & H6 & H7 & H8).
  exists rest, al, s, a, q, b, (str_lines q). do 7 (split; [assumption|]). split; [apply lines_text|]. exists (is_nonzero (blen a)).
  split; [rewrite H8; apply framed_is|]. unfold is_nonzero. destruct a as [|c a]; [split; [discriminate|contradiction]|].
  split; [discriminate|]. intros _. cbn [blen]. unfold clen.
  destruct (c <? 128), (c <? 2048), (c <? 65536); apply negb_true_iff, N.eqb_neq; lia.
Qed.

(** ** Messages *)

Definition two : list bool := [true; false].
Definition the_groups : list gkind :=
  [GKNormal; GKOptional; GKBeginEnd; GKLeftRight; GKAligned; GKSubArray; GKAlignedat; GKGathered; GKMultline; GKSplit] ++
  map GKArray two ++ flat_map (fun t => map (GKMatrix t) two) [MtNormal; MtSmall; MtParens; MtBrackets; MtBraces; MtVertical; MtDoubleVertical] ++
  flat_map (fun t => map (GKCases t) two) two ++ map GKEquation two ++ map GKAlign two ++ map GKAlignat two ++ map GKGather two.
Definition fixed_kinds : list error :=
  map (fun k => EUnbalancedGroup (Some k)) the_groups ++
  [EUnbalancedGroup None; EEnvironment; EMathShift; EHashSign; EDimensionArgument; EDimensionUnit; EMathUnit; EDelimiter; EControlSequence;
   ENumber; ECharacterNumber; EArgument; EGroupArgument; EDoubleSubscript; EDoubleSuperscript; EUnknownPrimitive; EControlSequenceAsArgument;
   EScriptAsArgument; EEmptyControlSequence; EUnknownColor; EInvalidCharNumber; ERelax; EBracesInParamText; ECommentInParamText; ETooManyParams;
   EStandaloneHashSign; EIncorrectMacroPrefix; EMacroSuffixNotFound; EMacroAlreadyDefined; EMacroNotDefined; EAlignment; ENewLine; EArrayNoColumns;
   EMissingExpansion; EMacroRecursionLimit; EToken].

Definition numbered (e : error) : bool := match e with EIncorrectMacroParams _ _ | EIncorrectReplacementParams _ _ => true | _ => false end.

Lemma fixed_all : forall e, numbered e = false -> In e fixed_kinds.
Proof.
  intros e H. assert (G : forall k, In k the_groups).
  { intro k. unfold the_groups, two. destruct k; repeat match goal with b : bool |- _ => destruct b | m : matrix_type |- _ => destruct m end; cbn; tauto. }
  unfold fixed_kinds. apply in_or_app. destruct e; try discriminate; try (right; cbn; tauto).
  match goal with k : option gkind |- _ => destruct k as [k|] end; [left; apply in_map_iff; exists k; auto|right; cbn; tauto].
Qed.

Definition told (m : str) : option error :=
  match find (fun p => str_eqb m (fst p)) (map (fun e => (error_message e, e)) fixed_kinds) with Some (_, e) => Some e | None => None end.
Lemma told_fixed : Forall (fun e => told (error_message e) = Some e) fixed_kinds.
Proof. unfold fixed_kinds, the_groups, two. cbn [map app flat_map]. repeat (constructor; [vm_compute; reflexivity|]). constructor. Qed.

Definition preface : str := lit "macro definition found parameter #".
Lemma preface_fixed : forallb (fun e => negb (starts_with preface (error_message e))) fixed_kinds = true.
Proof. vm_compute. reflexivity. Qed.

Definition digits (s : str) : bool := forallb (fun c => (48 <=? c) && (c <? 58)) s.
Definition worth (s : str) : N := fold_left (fun n c => 10 * n + (c - 48)) s 0.
Lemma dec_small : forall n, n < 256 -> digits (n_dec n) = true /\ worth (n_dec n) = n.
Proof.
  intros n H.
  assert (A : forallb (fun k => let n := N.of_nat k in digits (n_dec n) && (worth (n_dec n) =? n)) (seq 0 256) = true) by (vm_compute; reflexivity).
  pose proof (proj1 (forallb_forall _ _) A (N.to_nat n)) as B. cbv beta zeta in B. rewrite N2Nat.id in B.
  assert (I : In (N.to_nat n) (seq 0 256)) by (apply in_seq; lia). apply B, andb_prop in I as [I1 I2]. apply N.eqb_eq in I2. auto.
Qed.
Lemma digits_split : forall a b x y, digits a = true -> digits b = true -> a ++ 32 :: x = b ++ 32 :: y -> a = b /\ x = y.
Proof.
  induction a as [|c a IH]; intros [|d b] x y Ha Hb E; cbn in E; injection E; clear E; cbn [digits forallb] in *.
  - auto.
  - intros _ <-. discriminate.
  - intros _ ->. discriminate.
  - intros E ->. apply andb_prop in Ha as [_ Ha]. apply andb_prop in Hb as [_ Hb]. destruct (IH b x y Ha Hb E) as [-> ->]. auto.
Qed.

Lemma message_kind : forall e e', small e -> small e' -> error_message e = error_message e' -> e = e'.
Proof.
  assert (F : forall e, numbered e = false -> told (error_message e) = Some e) by (intros e H; exact (proj1 (Forall_forall _ _) told_fixed e (fixed_all e H))).
  assert (P : forall e, numbered e = false -> starts_with preface (error_message e) = false).
  { intros e H. apply negb_true_iff. exact (proj1 (forallb_forall _ _) preface_fixed e (fixed_all e H)). }
  assert (Q : forall e, numbered e = true -> starts_with preface (error_message e) = true) by (intros e H; destruct e; try discriminate; reflexivity).
  intros e e' Hs Hs' E. destruct (numbered e) eqn:N1, (numbered e') eqn:N2.
  - assert (D : forall f f' x y, f < 256 -> f' < 256 -> preface ++ n_dec f ++ 32 :: x = preface ++ n_dec f' ++ 32 :: y -> f = f' /\ x = y).
    { intros f f' x y Hf Hf' H. apply app_inv_head in H. destruct (dec_small f Hf) as [A1 A2], (dec_small f' Hf') as [B1 B2].
      apply digits_split in H as [H ->]; auto. split; [|reflexivity]. rewrite <- A2, <- B2. now f_equal. }
    destruct e as [| | | | | | | | | | | | | | | | | | | | | | | |f x|f x| | | | | | | | | | | |]; try discriminate N1;
      destruct e' as [| | | | | | | | | | | | | | | | | | | | | | | |f' x'|f' x'| | | | | | | | | | | |]; try discriminate N2; cbn [error_message] in E;
      destruct Hs as [S1 S2], Hs' as [S3 S4]; apply D in E as [-> E]; auto.
    + apply (app_inv_head (lit "but expected #")) in E. f_equal. destruct (dec_small x S2) as [_ A2], (dec_small x' S4) as [_ B2]. rewrite <- A2, <- B2. now f_equal.
    + exfalso. apply (f_equal (fun s => nth 13 s 0)) in E. vm_compute in E. discriminate.
    + exfalso. apply (f_equal (fun s => nth 13 s 0)) in E. vm_compute in E. discriminate.
    + apply (app_inv_head (lit "but expected a parameter in the range [1, ")) in E. apply app_inv_tail in E. f_equal.
      destruct (dec_small x S2) as [_ A2], (dec_small x' S4) as [_ B2]. rewrite <- A2, <- B2. now f_equal.
  - exfalso. apply Q in N1. apply P in N2. rewrite E in N1. congruence.
  - exfalso. apply Q in N2. apply P in N1. rewrite E in N1. congruence.
  - apply F in N1. apply F in N2. rewrite E in N1. congruence.
Qed.

Lemma message_no_newline : forall e, small e -> ~ In 10 (error_message e).
Proof.
  intros e Hs. destruct (numbered e) eqn:N1.
  - assert (D : forall n, n < 256 -> ~ In 10 (n_dec n)).
    { intros n Hn H. destruct (dec_small n Hn) as [A _]. apply (proj1 (forallb_forall _ _) A) in H. vm_compute in H. discriminate. }
    assert (C : forall s, existsb (N.eqb 10) s = false -> ~ In 10 s).
    { intros s H Q. assert (existsb (N.eqb 10) s = true) by (apply existsb_exists; exists 10; auto). congruence. }
    destruct e; try discriminate; destruct Hs as [S1 S2]; cbn [error_message]; rewrite !in_app_iff;
      intros H; repeat match goal with Q : _ \/ _ |- _ => destruct Q as [Q|Q] end;
      match goal with Q : In 10 (n_dec _) |- _ => revert Q; apply D; assumption | Q : In 10 _ |- _ => revert Q; apply C; vm_compute; reflexivity end.
  - apply fixed_all in N1. assert (A : forallb (fun e => negb (existsb (N.eqb 10) (error_message e))) fixed_kinds = true) by (vm_compute; reflexivity).
    apply (proj1 (forallb_forall _ _) A) in N1. apply negb_true_iff in N1. intro Q.
    assert (existsb (N.eqb 10) (error_message e) = true) by (apply existsb_exists; exists 10; auto). congruence.
Qed.

(** What is displayed tells the kind of the error and its context. *)
Lemma display_kind : forall pe pe', small (pe_kind pe) -> small (pe_kind pe') -> error_display pe = error_display pe' -> pe = pe'.
Proof.
  intros [e c] [e' c'] Hs Hs' H. unfold error_display in H. cbn [pe_kind pe_context] in *. apply app_inv_head in H. cbn [app] in H.
  apply newline_split in H as [H ->]; [|now apply message_no_newline..]. f_equal. now apply message_kind.
Qed.

(** The message says what is wrong. *)
Lemma contains_b_yes : forall t s, contains_b t s = true -> contains t s.
Proof.
  intros t. induction s as [|c s IH]; cbn [contains_b]; intro H; apply orb_prop in H as [H|H].
  - apply starts_with_spec in H as (q & ->). exists [], q. reflexivity.
  - discriminate.
  - apply starts_with_spec in H as (q & ->). exists [], q. reflexivity.
  - apply IH in H as (a & b & ->). exists (c :: a), b. reflexivity.
Qed.
Lemma message_tells : forall e w, In w (tells e) -> contains w (error_message e).
Proof.
  intros e w H. destruct (numbered e) eqn:N1.
  - destruct e as [| | | | | | | | | | | | | | | | | | | | | | | |f x|f x| | | | | | | | | | | |]; try discriminate; cbn [tells In] in H; destruct H as [<-|[<-|[]]]; cbn [error_message].
    + exists (lit "macro definition "), (n_dec f ++ lit " but expected #" ++ n_dec x). reflexivity.
    + exists (lit "macro definition found parameter #" ++ n_dec f ++ lit " "), (n_dec x). rewrite <- !app_assoc. reflexivity.
    + exists (lit "macro definition "), (n_dec f ++ lit " but expected a parameter in the range [1, " ++ n_dec x ++ lit "]"). reflexivity.
    + exists (lit "macro definition found parameter #" ++ n_dec f ++ lit " but expected a parameter "), (n_dec x ++ lit "]"). rewrite <- !app_assoc. reflexivity.
  - apply fixed_all in N1. assert (A : forallb (fun e => forallb (fun w => contains_b w (error_message e)) (tells e)) fixed_kinds = true) by (vm_compute; reflexivity).
    apply (proj1 (forallb_forall _ _) A) in N1. apply (proj1 (forallb_forall _ _) N1) in H. now apply contains_b_yes.
Qed.
