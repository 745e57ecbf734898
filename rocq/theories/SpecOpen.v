(** * SpecOpen: the commands that may leave a group open when they fail. *)

From Coq Require Import List NArith.
From Verif Require Import Base Lex SpecLex PrimFacts.
Import ListNotations.
Open Scope N_scope.

(** Commands that start a group of their own and then read an argument. *)
Definition opening_commands : list str :=
  [lit "\pmod"; lit "\mathord"; lit "\mathop"; lit "\mathbin"; lit "\mathrel"; lit "\mathopen"; lit "\mathclose"; lit "\mathpunct"; lit "\mathinner";
   lit "\mathbf"; lit "\symbf"; lit "\mathbfup"; lit "\symbfup"; lit "\boldsymbol"; lit "\mathcal"; lit "\symcal"; lit "\mathit"; lit "\symit"; lit "\mathrm";
   lit "\symrm"; lit "\mathup"; lit "\symup"; lit "\mathsf"; lit "\symsf"; lit "\mathsfup"; lit "\symsfup"; lit "\mathtt"; lit "\symtt"; lit "\mathbb"; lit "\symbb";
   lit "\mathbbit"; lit "\symbbit"; lit "\mathfrak"; lit "\symfrak"; lit "\mathbfcal"; lit "\symbfcal"; lit "\mathsfit"; lit "\symsfit"; lit "\mathbfit";
   lit "\symbfit"; lit "\mathbffrak"; lit "\symbffrak"; lit "\mathbfsfup"; lit "\symbfsfup"; lit "\mathbfsfit"; lit "\symbfsfit"; lit "\mathnormal";
   lit "\symnormal"; lit "\textcolor"; lit "\colorbox"; lit "\fcolorbox"; lit "\genfrac"; lit "\cfrac"; lit "\dfrac"; lit "\tfrac"; lit "\binom"; lit "\dbinom";
   lit "\tbinom"].

(** Environments with delimiters around them. *)
Definition opening_environments : list str := [lit "pmatrix"; lit "bmatrix"; lit "vmatrix"; lit "Vmatrix"; lit "Bmatrix"].

Definition leaves_none_open (input : str) : Prop :=
  forall t, In t (opening_commands ++ opening_environments) -> ~ contains t input.
