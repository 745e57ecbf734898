(** * Order: moving the scripts to the instruction stack. *)

From Coq Require Import List NArith ZArith Bool Lia Arith.
From Verif Require Import Base Float32 Event Tables Prim PrimTable Lex Macros Primitives Spans Parser.
Import ListNotations.
Open Scope nat_scope.

Lemma skipn_skipn' : forall A (l : list A) m n, skipn n (skipn m l) = skipn (m + n) l.
Proof.
  induction l as [|x l IH]; intros m n; [rewrite !skipn_nil; reflexivity|].
  destruct m as [|m]; [reflexivity|]. cbn. apply IH.
Qed.

Lemma write_at_app : forall A (a : list (option A)) x y b,
  write_at (length a) x (a ++ y :: b) = Some (a ++ Some x :: b).
Proof. induction a as [|z a IH]; intros x y b; cbn; [reflexivity|]. rewrite IH. reflexivity. Qed.

Lemma write_at_none : forall A (s : list (option A)) i x, length s <= i -> write_at i x s = None.
Proof.
  induction s as [|y s IH]; intros i x H; [destruct i; reflexivity|]. destruct i as [|i]; cbn in *; [lia|].
  rewrite IH by lia. reflexivity.
Qed.

(** Without reaching the end. *)
Lemma spare_loop_run : forall A n (l : list A) (a m b : list (option A)) l2,
  length m = length l -> length (a ++ m ++ b) = n ->
  spare_loop n (length a) (l ++ l2) (a ++ m ++ b) =
  spare_loop n (length a + length l) l2 (a ++ map Some l ++ b).
Proof.
  intros A n. induction l as [|x l IH]; intros a m b l2 Hm Hn.
  - destruct m; [|discriminate]. cbn. rewrite Nat.add_0_r. reflexivity.
  - destruct m as [|y m]; [discriminate|]. cbn [app spare_loop length map]. injection Hm as Hm.
    assert (Hlt : length a <> n) by (rewrite app_length in Hn; cbn in Hn; lia).
    apply Nat.eqb_neq in Hlt. rewrite Hlt. change (a ++ y :: m ++ b) with (a ++ y :: (m ++ b)).
    rewrite write_at_app. specialize (IH (a ++ [Some x]) m b l2 Hm).
    rewrite <- !app_assoc in IH. cbn [app] in IH.
    replace (length (a ++ [Some x])) with (S (length a)) in IH by (rewrite app_length; cbn; lia).
    rewrite IH.
    + f_equal. lia.
    + rewrite app_length in *. cbn in *. lia.
Qed.

Lemma spare_rotate : forall A (a b : list A), a <> [] ->
  spare_loop (length (b ++ a)) (length a) (b ++ a) (repeat None (length (b ++ a)))
  = Some (map Some a ++ map Some b).
Proof.
  intros A a b Ha. set (n := length (b ++ a)). assert (En : n = length a + length b).
  { unfold n. rewrite app_length. lia. }
  assert (E : repeat None n = repeat (@None A) (length a) ++ repeat None (length b) ++ []).
  { rewrite app_nil_r, En. apply repeat_app. }
  rewrite E.
  pose proof (spare_loop_run A n b (repeat None (length a)) (repeat None (length b)) [] a) as H.
  rewrite !repeat_length in H. rewrite H; [|reflexivity|rewrite !app_length, !repeat_length; cbn; lia].
  rewrite app_nil_r. destruct a as [|x a]; [congruence|].
  cbn [spare_loop]. replace (length (x :: a) + length b =? n) with true by (symmetry; apply Nat.eqb_eq; lia).
  cbn [length repeat app write_at].
  pose proof (spare_loop_run A n a [Some x] (repeat None (length a)) (map Some b) []) as H2.
  cbn [length app] in H2. rewrite app_nil_r in H2. rewrite H2.
  - cbn. reflexivity.
  - apply repeat_length.
  - rewrite app_length, repeat_length, map_length. cbn in En. lia.
Qed.

Lemma all_init_some : forall A (l : list A), all_init (map Some l) = Some l.
Proof. induction l as [|x l IH]; cbn; [reflexivity|]. rewrite IH. reflexivity. Qed.

(** With the superscript first, the subscript is put before it. *)
Lemma order_sup_first : forall sub sup buf, sup < sub -> sub <= length buf ->
  order_scripts sub sup buf = Ok (skipn sub buf ++ firstn (sub - sup) (skipn sup buf)).
Proof.
  intros sub sup buf H1 H2. unfold order_scripts. apply Nat.ltb_lt in H1 as H1'. rewrite H1'.
  set (l := skipn sup buf). set (k := sub - sup).
  assert (Hl : length l = length buf - sup) by apply skipn_length.
  assert (Hs : skipn sub buf = skipn k l).
  { unfold l, k. rewrite skipn_skipn'. f_equal. lia. }
  assert (Er : rev l = rev (skipn k l) ++ rev (firstn k l)).
  { rewrite <- rev_app_distr, firstn_skipn. reflexivity. }
  assert (Ek : k = length (rev (firstn k l))).
  { rewrite rev_length, firstn_length. unfold k. lia. }
  rewrite Er.
  assert (Hne : rev (firstn k l) <> []).
  { intro H. apply (f_equal (@length _)) in H. rewrite <- Ek in H. cbn in H. unfold k in H. lia. }
  pose proof (spare_rotate _ (rev (firstn k l)) (rev (skipn k l)) Hne) as Hr. rewrite <- Ek in Hr. rewrite Hr.
  rewrite <- map_app, all_init_some, rev_app_distr, !rev_involutive, Hs. reflexivity.
Qed.

Lemma order_sub_first : forall sub sup buf, sub <= sup ->
  order_scripts sub sup buf = Ok (skipn sub buf).
Proof. intros sub sup buf H. unfold order_scripts. apply Nat.ltb_ge in H. rewrite H. reflexivity. Qed.

(** In every case in which an order is found nothing is lost or added. *)
Lemma order_perm : forall sub sup buf l, order_scripts sub sup buf = Ok l ->
  (l = skipn (Nat.min sub sup) buf) \/
  (sup < sub /\ sub <= length buf /\ l = skipn sub buf ++ firstn (sub - sup) (skipn sup buf)).
Proof.
  intros sub sup buf l H. destruct (Nat.lt_ge_cases sup sub) as [Hs|Hs].
  - destruct (Nat.le_gt_cases sub (length buf)) as [Hb|Hb].
    + right. rewrite order_sup_first in H by assumption. injection H as <-. auto.
    + left. replace (Nat.min sub sup) with sup by lia. unfold order_scripts in H.
      apply Nat.ltb_lt in Hs as Hs'. rewrite Hs' in H.
      destruct (rev (skipn sup buf)) as [|x m] eqn:E.
      * cbn in H. injection H as <-. apply (f_equal (@rev _)) in E. rewrite rev_involutive in E. symmetry. exact E.
      * exfalso. cbn [length spare_loop] in H.
        assert (Hn : length (x :: m) = length buf - sup) by (rewrite <- E, rev_length; apply skipn_length).
        cbn [length] in Hn. destruct (sub - sup =? S (length m)) eqn:Ee; [apply Nat.eqb_eq in Ee; lia|].
        rewrite write_at_none in H; [discriminate|]. cbn. rewrite repeat_length. lia.
  - left. rewrite order_sub_first in H by assumption. injection H as <-. f_equal. lia.
Qed.
