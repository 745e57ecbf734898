(** * Properties C01, C02, C09, C13, C25: termination, fusion, number of items,
    and what holds of every single event. *)

From Coq Require Import List NArith ZArith Bool Lia Arith.
From Verif Require Import Base Event Lex Primitives Parser PrimFacts Terminate Api.
Import ListNotations.
Open Scope N_scope.

(** C01: every call of [next], in any state of the parser, returns. *)
Theorem C01_next_returns : forall p, exists n, fst (next n p) <> OFuel /\ fst (next n p) <> OCont.
Proof. exact Terminate.next_halts. Qed.
Print Assumptions C01_next_returns.

(** C01: on every input the iterator ends after finitely many items: with
    [None], or because a call panics. *)
Theorem C01_parsing_terminates : forall input,
  (exists l, parses input l) \/ (exists l x, panics input l x).
Proof. exact run_terminates. Qed.
Print Assumptions C01_parsing_terminates.

(** The theorem covers macros that call themselves: *)
Example C01_recursive_macro : exists e,
  parses (lit "\def\a{x\a}\a")
    (repeat (ItEvent (EvContent (COrdinary 120 false))) 64 ++ [ItError e]).
Proof. eexists. exists 200%nat. eexists. vm_compute. reflexivity. Qed.

(** C02: once the iterator has ended, every later call returns [None] and
    changes nothing. *)
Theorem C02_fused : forall input l n p, run n (new_parser input) = (l, ODone, p) ->
  forall m, next (S m) p = (ODone, p).
Proof. intros input l n p. exact (run_fused n (new_parser input) l p). Qed.
Print Assumptions C02_fused.

Example C02_after_error : exists e p,
  run 20 (new_parser (lit "\unknown x")) = ([ItError e; ItEvent (EvContent (COrdinary 120 false))], ODone, p).
Proof. eexists. eexists. vm_compute. reflexivity. Qed.

(** C13: without definitions, the number of items is at most three times the
    number of characters, plus one. *)
Theorem C13_linear_items : forall input l, defines_nothing input -> yields input l ->
  (length l <= 3 * length input + 1)%nat.
Proof. exact linear_items. Qed.
Print Assumptions C13_linear_items.

Example C13_seven_items : length (items_of (run 20 (new_parser (lit "\frac{a}{b}")))) = 7%nat
  /\ defines_nothing (lit "\frac{a}{b}").
Proof.
  split; [vm_compute; reflexivity|]. intros c Hc (p & q & E).
  assert (Hl : (length c <= 11)%nat).
  { apply (f_equal (@length _)) in E. rewrite !app_length in E. change (length (lit "\frac{a}{b}")) with 11%nat in E. lia. }
  assert (Hn : forall k, k <> 0%nat -> nth_error (lit "\frac{a}{b}") k <> Some 92).
  { intros k Hk. do 11 (destruct k as [|k]; [try congruence; discriminate|]). destruct k; discriminate. }
  assert (Hp : p = []).
  { destruct p as [|x p]; [reflexivity|]. exfalso. apply (Hn (length (x :: p))); [discriminate|]. rewrite E.
    rewrite nth_error_app2, Nat.sub_diag by lia.
    destruct Hc as [<-|[<-|[<-|[<-|[<-|[<-|[]]]]]]]; reflexivity. }
  subst p. destruct Hc as [<-|[<-|[<-|[<-|[<-|[<-|[]]]]]]]; discriminate.
Qed.

(** C09: every array emitted has a column, also with macros and after errors. *)
Theorem C09_array_has_column : forall input l cols, yields input l ->
  In (EvBegin (GArray cols)) (events l) -> exists a, In (ACColumn a) cols.
Proof. exact array_column. Qed.
Print Assumptions C09_array_has_column.

Example C09_array : exists n,
  hd_error (items_of (run n (new_parser (lit "\begin{array}{c|r}a&b\end{array}")))) =
  Some (ItEvent (EvBegin (GArray [ACColumn CACenter; ACSep LSolid; ACColumn CARight]))).
Proof. exists 20%nat. vm_compute. reflexivity. Qed.

(** C25: every number emitted starts with a digit and has only digits, dots and
    commas. *)
Theorem C25_number_shape : forall input l s, yields input l -> In (EvContent (CNumber s)) (events l) ->
  exists c r, s = c :: r /\ 48 <= c <= 57 /\ Forall (fun x => x = 46 \/ x = 44 \/ 48 <= x <= 57) r.
Proof. exact number_event. Qed.
Print Assumptions C25_number_shape.

Example C25_number : parses (lit "1,234.5,")
  [ItEvent (EvContent (CNumber (lit "1,234.5"))); ItEvent (EvContent (CPunctuation 44))].
Proof. exists 20%nat. eexists. vm_compute. reflexivity. Qed.

(** C25: it is not so that a number never ends with a separator. *)
Theorem C25_no_trailing_separator_refuted : exists input s,
  parses input [ItEvent (EvContent (CNumber (s ++ [46]))); ItEvent (EvContent (CPunctuation 46))].
Proof. exists (lit "1.."), (lit "1"). exists 20%nat. eexists. vm_compute. reflexivity. Qed.
Print Assumptions C25_no_trailing_separator_refuted.
