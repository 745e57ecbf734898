(** * CheckInput: a test that shows that a given input is regular.

    It rejects some regular inputs; it serves to show that the hypotheses of
    the theorems about regular inputs hold for concrete inputs. *)

From Coq Require Import Ascii String List NArith ZArith Bool Lia Arith.
From Verif Require Import Base Float32 Event Tables Prim PrimTable Lex SpecLex SpecInput LexFacts LexMore PrimFacts
  Primitives Spans Parser Keep Api Shape ShapeRun ShapeStrict.
Import ListNotations.
Open Scope N_scope.

Fixpoint drop_while (f : char -> bool) (s : str) : str :=
  match s with [] => [] | c :: s' => if f c then drop_while f s' else s end.

Definition script_next (s : str) : bool := match s with c :: _ => (c =? 94) || (c =? 95) | [] => false end.

Definition starts_irregular (t : str) : bool :=
  existsb (fun c => starts_with c t) irregular_commands
  || match strip_prefix (lit "\sqrt") t with
     | Some r =>
         match strip_char 91 (trim_start r) with
         | Some q => match group_content GKOptional q with (Ok i, _) => negb (one_symbol_b i) | _ => false end
         | None => false
         end
     | None => false
     end
  || existsb (fun c => match strip_prefix c t with
       | Some r => existsb (fun m => starts_with m (skip_blank false r)) separators
       | None => false
       end) font_commands
  || match t with 38 :: r => script_next (trim_start r) | _ => false end
  || existsb (fun m => match strip_prefix m t with
       | Some r =>
           let r := drop_while (fun c => is_ws c || (c =? 92) || is_alpha c) r in
           starts_with [91] r || script_next r
       | None => false
       end) line_breaks.

Fixpoint suffixes (s : str) : list str := s :: match s with [] => [] | _ :: s' => suffixes s' end.

Definition regular_b (s : str) : bool := forallb (fun t => negb (starts_irregular t)) (suffixes s).

Lemma starts_with_app : forall p r, starts_with p (p ++ r) = true.
Proof.
  intros p r. destruct (starts_with p (p ++ r)) eqn:E; [reflexivity|].
  apply strip_prefix_none in E. rewrite (proj2 (strip_prefix_some p (p ++ r) r) eq_refl) in E. discriminate.
Qed.

Lemma strip_prefix_app : forall p r, strip_prefix p (p ++ r) = Some r.
Proof. intros p r. apply strip_prefix_some. reflexivity. Qed.

Lemma trim_start_spaces : forall w s, spaces w -> trim_start (w ++ s) = trim_start s.
Proof. intros w s H. induction H as [|c w Hc H IH]; [reflexivity|]. cbn [app trim_start]. rewrite Hc. exact IH. Qed.

Lemma spaces_blank : forall w, spaces w -> blank w.
Proof. intros w H. induction H; constructor; assumption. Qed.

Lemma drop_while_app : forall f a s, forallb f a = true -> drop_while f (a ++ s) = drop_while f s.
Proof.
  intros f a s H. induction a as [|c a IH]; [reflexivity|]. cbn [forallb] in H. apply andb_prop in H as [H1 H2].
  cbn [app drop_while]. rewrite H1. auto.
Qed.

Definition soft (c : char) : bool := is_ws c || (c =? 92) || is_alpha c.

Lemma spaces_soft : forall w, spaces w -> forallb soft w = true.
Proof. intros w H. induction H as [|c w Hc H IH]; [reflexivity|]. cbn [forallb]. rewrite IH. unfold soft. rewrite Hc. reflexivity. Qed.

Lemma rules_soft : forall h, rules h -> forallb soft h = true.
Proof.
  intros h H. induction H as [|w l h Hw Hl Hh IH]; [reflexivity|]. rewrite !forallb_app, IH, (spaces_soft w Hw).
  destruct Hl as [<-|[<-|[]]]; vm_compute; reflexivity.
Qed.

Lemma irregular_test : forall t q, irregular t -> starts_irregular (t ++ q) = true.
Proof.
  intros t q H. unfold starts_irregular. rewrite !orb_true_iff. destruct H as [c r Hc|w i r Hw Hb Hi|c w b m r Hc Hw Hb Hm|w x r Hw Hx|m w o h w' x r Hm Hw Ho Hh Hw' Hx].
  - do 4 left. apply existsb_exists. exists c. split; [exact Hc|]. rewrite <- app_assoc. apply starts_with_app.
  - do 3 left. right.
    replace ((lit "\sqrt" ++ w ++ 91 :: i ++ 93 :: r) ++ q)%list with (lit "\sqrt" ++ w ++ 91 :: i ++ 93 :: r ++ q)%list
      by (rewrite <- !app_assoc; cbn [app]; rewrite <- !app_assoc; reflexivity).
    rewrite strip_prefix_app, (trim_start_spaces w _ Hw). cbn [trim_start]. change (is_ws 91) with false.
    cbn [strip_char N.eqb Pos.eqb]. rewrite (proj2 (group_content_balanced GKOptional 91 93 ltac:(right; auto) _ i (r ++ q)%list)) by auto.
    destruct (one_symbol_b i) eqn:E; [|reflexivity]. apply one_symbol_iff in E. contradiction.
  - do 2 left. right. apply existsb_exists. exists c. split; [exact Hc|]. rewrite <- !app_assoc, strip_prefix_app.
    apply existsb_exists. exists m. split; [exact Hm|].
    rewrite (skip_blank_app w (spaces_blank w Hw)), (skip_blank_app b Hb).
    replace (skip_blank false (m ++ r ++ q)) with (m ++ r ++ q)%list; [apply starts_with_app|].
    destruct Hm as [<-|[<-|[<-|[]]]]; reflexivity.
  - left. right. cbn [app]. rewrite <- app_assoc, (trim_start_spaces w _ Hw).
    destruct Hx as [<-|[<-|[]]]; reflexivity.
  - right. apply existsb_exists. exists m. split; [exact Hm|]. rewrite <- !app_assoc, strip_prefix_app. cbv zeta.
    fold soft. change (fun c => is_ws c || (c =? 92) || is_alpha c) with soft.
    rewrite (drop_while_app soft w) by (apply spaces_soft; exact Hw).
    inversion Ho as [|w1 Hw1|w1 a Hw1 Ha]; subst.
    + cbn [app]. rewrite (drop_while_app soft h) by (apply rules_soft; exact Hh).
      rewrite (drop_while_app soft w') by (apply spaces_soft; exact Hw'). apply orb_true_iff. right.
      destruct Hx as [<-|[<-|[]]]; reflexivity.
    + rewrite <- app_assoc. rewrite (drop_while_app soft w1) by (apply spaces_soft; exact Hw1). reflexivity.
    + rewrite <- app_assoc. rewrite (drop_while_app soft w1) by (apply spaces_soft; exact Hw1). reflexivity.
Qed.

Lemma suffixes_in : forall p s, In s (suffixes (p ++ s)).
Proof.
  induction p as [|c p IH]; intros s; [destruct s; left; reflexivity|]. cbn [app suffixes]. right. apply IH.
Qed.

Lemma regular_test : forall s, regular_b s = true -> regular s.
Proof.
  intros s H t (p & q & ->) Ht. unfold regular_b in H. rewrite forallb_forall in H.
  specialize (H _ (suffixes_in p (t ++ q))). rewrite (irregular_test t q Ht) in H. discriminate.
Qed.
