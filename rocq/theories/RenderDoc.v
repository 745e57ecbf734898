(** * RenderDoc: whole documents. *)

From Coq Require Import List NArith ZArith Bool Lia.
From Verif Require Import Base Float32 Event Tables Prim Spans DisplayFacts Mathml SpecEvent SpecStream SpecXml XmlFacts RenderFacts TableFacts RenderTree.
Import ListNotations.
Open Scope N_scope.
Open Scope sm_scope.

(** The annotation is written as it is. *)
Definition note_clean (st : option bool) (cfg : render_config) : bool :=
  match st, c_annotation cfg with Some _, Some a => text_ok a | _, _ => true end.

Definition math_atts (cfg : render_config) : list (str * str) :=
  ((lit "display", display_str (c_display cfg)) ::
   (if c_xml cfg then [(lit "xmlns", lit "http://www.w3.org/1998/Math/MathML")] else []))%list.
Definition sem : str := lit "semantics".
Definition math : str := lit "math".
Definition note : str := lit "annotation".
Definition note_atts : list (str * str) := [(lit "encoding", lit "application/x-tex")].

Lemma prologue_reads : forall st cfg, reads st QText (prologue cfg)
  (XO math (math_atts cfg) :: match c_annotation cfg with Some _ => [XO sem []; XO mrow []] | None => [] end) QText.
Proof.
  intros st cfg. unfold prologue, math_atts. destruct (c_display cfg), (c_xml cfg), (c_annotation cfg); lexlit st.
Qed.

Lemma epilogue_reads : forall st cfg, note_clean st cfg = true -> reads st QText (epilogue cfg)
  (match c_annotation cfg with
   | Some a => XC mrow :: XO note note_atts :: map XT a ++ [XC note; XC sem; XC math]
   | None => [XC math]
   end) QText.
Proof.
  intros st cfg H. unfold epilogue, note_clean in *. destruct (c_annotation cfg) as [a|]; [|lexlit st].
  rewrite <- app_assoc. eapply reads_cat with (t1 := [XC mrow; XO note note_atts]); [lexlit st| |reflexivity].
  rewrite <- app_assoc. eapply reads_app; [apply reads_text; destruct st; [now right|now left]|]. lexlit st.
Qed.

Lemma build_chars : forall o n k K a, token_elem n = true -> build o ((n, k) :: K) (map XT a) = Some ((n, k) :: K).
Proof. induction a as [|c a IH]; intro H; [reflexivity|]. cbn [map build]. rewrite H. now apply IH. Qed.

Lemma push_items_spec : forall (o : ropts) cfg string is, well_formed (map as_event is) -> Forall (fine (strict o)) (map as_event is) ->
  (arity o = true -> steady start_frames (map as_event is) = true) -> note_clean (strict o) cfg = true ->
  exists out l, push_mathml cfg string is = Ok (string ++ out)%list
    /\ reads (strict o) QText out (XO math (math_atts cfg) :: l) QText
    /\ build o [(math, O)] l = Some [].
Proof.
  intros o cfg string is (b & Hw) Hf Hs Hn.
  set (root := match c_annotation cfg with Some _ => mrow | None => math end).
  set (base := match c_annotation cfg with Some _ => [(sem, 1%nat); (math, 1%nat)] | None => [] end).
  assert (Hroot : holds_formulas root = true) by (unfold root; destruct (c_annotation cfg); reflexivity).
  set (r0 := set_out (string ++ prologue cfg)%list (new_writer string is)).
  assert (HS : Sim o root base start_frames ((root, O) :: base) r0 is).
  { split; [apply W_base|]. split; [split; reflexivity|]. split; [exists b; exact Hw|]. split; [exact Hf|exact Hs]. }
  destruct (loop_spec o root base Hroot cfg (S (length is)) start_frames _ r0 is (Nat.lt_succ_diag_r _) HS)
    as (r1 & ts & k & E1 & (out1 & O1 & R1) & B1 & N1 & S1).
  exists (prologue cfg ++ out1 ++ epilogue cfg)%list.
  exists (match c_annotation cfg with Some _ => [XO sem []; XO mrow []] | None => [] end ++ ts ++
     match c_annotation cfg with
     | Some a => XC mrow :: XO note note_atts :: map XT a ++ [XC note; XC sem; XC math]
     | None => [XC math]
     end)%list. split; [|split].
  - unfold push_mathml, write. unfold bind at 1. unfold wr at 1, modify at 1. unfold bind at 1. rewrite in_length_spec.
    change (set_out (r_out (new_writer string is) ++ prologue cfg) (new_writer string is)) with r0.
    change (length (stream (r_in r0))) with (length is).
    unfold bind at 1. rewrite E1. unfold bind, recovery, wr, modify. cbn [r_out set_out]. rewrite N1. cbn [flat_map].
    rewrite app_nil_r. rewrite O1. change (r_out r0) with (string ++ prologue cfg)%list. now rewrite <- !app_assoc.
  - eapply reads_cat; [apply prologue_reads|eapply reads_app; [exact R1|apply epilogue_reads; exact Hn]|]. now rewrite <- app_comm_cons.
  - unfold root, base in B1. destruct (c_annotation cfg) as [a|].
    + rewrite build_app. change (build o [(math, O)] [XO sem []; XO mrow []]) with (Some [(mrow, O); (sem, 1%nat); (math, 1%nat)]).
      cbn iota. rewrite build_app, B1. cbn [build]. rewrite complete_mrow. change (str_eqb mrow mrow) with true. cbn [andb].
      change (fits sem note) with true. cbn iota. rewrite build_app, build_chars by reflexivity.
      destruct o as [st [q ar]]; destruct ar; reflexivity.
    + rewrite build_app. cbn [build]. rewrite build_app. unfold math in *. rewrite B1. destruct o as [st [q ar]]; destruct ar; reflexivity.
Qed.

Lemma as_event_id : forall es, map as_event (map RIEvent es) = es.
Proof. induction es as [|e es IH]; [reflexivity|]. cbn [map as_event]. now rewrite IH. Qed.

Lemma push_spec : forall (o : ropts) cfg string es, well_formed es -> Forall (fine (strict o)) es ->
  (arity o = true -> steady start_frames es = true) -> note_clean (strict o) cfg = true ->
  exists out l, push_mathml cfg string (map RIEvent es) = Ok (string ++ out)%list
    /\ reads (strict o) QText out (XO math (math_atts cfg) :: l) QText
    /\ build o [(math, O)] l = Some [].
Proof. intros o cfg string es H1 H2 H3 H4. apply push_items_spec; rewrite ?as_event_id; assumption. Qed.
