(** * FormulaDerive: tactics that derive the meaning of a concrete text.

    Used for the examples beside the theorems only. *)

From Coq Require Import Ascii String List NArith ZArith Bool Lia Arith.
From Verif Require Import Base Float32 Event Tables Prim PrimTable Lex Primitives Keep SpecLex SpecNum LexFacts LexMore SpecFormula FormulaLex FormulaNucleus3.
Import ListNotations.
Open Scope N_scope.
Open Scope list_scope.

Lemma blank_white : forall w, forallb is_ws w = true -> blank w.
Proof. induction w as [|c w IH]; intros H; [constructor|]. cbn in H. apply andb_prop in H as [H1 H2]. constructor; auto. Qed.

Definition head_b (p : char -> bool) (s : str) : bool := match s with [] => false | c :: _ => p c end.

Definition control_b (cs w r : str) : bool :=
  forallb is_ws w && negb (head_b is_ws r) &&
  ((negb (is_nil cs) && forallb is_alpha cs && negb (head_b is_alpha (w ++ r))) ||
   match cs with [c] => negb (is_alpha c) | _ => false end).

Lemma control_dec : forall cs w r, control_b cs w r = true -> control cs (92 :: cs ++ w ++ r) r.
Proof.
  intros cs w r H. unfold control_b in H. apply andb_prop in H as [H H3]. apply andb_prop in H as [H1 H2]. exists w.
  split; [reflexivity|]. split; [exact H1|]. split.
  { destruct r as [|c r]; [exact I|]. cbn in *. destruct (is_ws c); [discriminate|intros X; discriminate]. }
  apply orb_prop in H3 as [H3|H3].
  - left. apply andb_prop in H3 as [H3 H5]. apply andb_prop in H3 as [H3 H4]. split; [destruct cs; [discriminate|congruence]|]. split.
    + rewrite forallb_forall in H4. apply Forall_forall. intros c Hc. apply letter_alpha, H4, Hc.
    + destruct (w ++ r) as [|c t]; [exact I|]. cbn in *. intros Hl. apply letter_alpha in Hl. rewrite Hl in H5. discriminate.
  - right. destruct cs as [|c [|? ?]]; try discriminate. exists c. split; [reflexivity|]. intros Hl. apply letter_alpha in Hl. rewrite Hl in H3. discriminate.
Qed.

Lemma balanced_dec : forall k o c g, brace_like k o c -> group_content k (g ++ [c]) = (Ok g, []) -> balanced o c g.
Proof. intros k o c g Hk H. apply (group_content_balanced k o c Hk) in H. apply H. Qed.

Lemma braces_dec : forall g, group_content GKNormal (g ++ [125]) = (Ok g, []) -> balanced 123 125 g.
Proof. intros g. apply balanced_dec. left. auto. Qed.
Lemma brackets_dec : forall g, group_content GKOptional (g ++ [93]) = (Ok g, []) -> balanced 91 93 g.
Proof. intros g. apply balanced_dec. right. auto. Qed.

Lemma starts_dec : forall c s, is_ws c = false -> head_b (N.eqb c) (trim_start s) = false -> ~ starts c s.
Proof.
  intros c s Hc H (w & r & Hw & ->). rewrite trim_to in H by assumption. cbn in H. rewrite N.eqb_refl in H. discriminate.
Qed.

Definition begins_b (p s : str) : bool := match strip_prefix p (trim_start s) with Some _ => true | None => false end.

Lemma begins_dec : forall p s, match p with c :: _ => is_ws c = false | [] => False end -> begins_b p s = false ->
  forall w r, white w -> s <> w ++ p ++ r.
Proof.
  intros p s Hp H w r Hw ->. destruct p as [|c p]; [contradiction|]. unfold begins_b in H.
  rewrite <- app_comm_cons in H. rewrite trim_to in H by assumption.
  change (c :: p ++ r) with ((c :: p) ++ r) in H.
  assert (E : strip_prefix (c :: p) ((c :: p) ++ r) = Some r); [|rewrite E in H; discriminate].
  clear. generalize (c :: p). intros l. induction l as [|x l IH]; [reflexivity|]. cbn. rewrite N.eqb_refl. exact IH.
Qed.

Lemma lines_none : forall s, begins_b hline s = false -> begins_b hdashline s = false -> lines s [] s.
Proof. intros s H1 H2. apply L_none. intros w r Hw. split; apply begins_dec; try assumption; reflexivity. Qed.

Lemma modifiers_none : forall p s, begins_b (lit "\limits") s = false -> begins_b (lit "\nolimits") s = false -> modifiers p s p s.
Proof. intros p s H1 H2. apply M_none. intros w r Hw. split; apply begins_dec; try assumption; reflexivity. Qed.

Lemma formula_is : forall {KN : Known} al s es es', formula al s es' -> es' = es -> formula al s es.
Proof. intros; subst; assumption. Qed.

Lemma symbol_dec : forall cs e, lookup_prim cs = PSimple e -> symbol cs e.
Proof. intros cs e H. exact H. Qed.

Lemma digits_number : forall n, match n with c :: _ => is_digit c && forallb is_numeral n | [] => false end = true -> number n.
Proof.
  intros [|c n] H; [discriminate|]. apply andb_prop in H as [H1 H3]. split.
  - rewrite forallb_forall in H3. apply Forall_forall. intros x Hx. apply numeric_is, H3, Hx.
  - exists c, n. split; [reflexivity|]. apply digit_is, H1.
Qed.

Lemma after_number_dec : forall n r, match n with [] => false | _ => is_digit (last n 0) end && match r with [] => true | c :: _ => negb (is_numeral c) end ||
    match r with [] => false | c :: r' => ((c =? 46) || (c =? 44)) && match r' with [] => true | d :: _ => negb (is_numeral d) end end = true -> after_number n r.
Proof.
  intros n r H. apply orb_prop in H as [H|H]; [apply andb_prop in H as [H0 H]; left; split|destruct r as [|c r]; [discriminate|]].
  - destruct n as [|x n]; [discriminate|]. exists (last (x :: n) 0), (removelast (x :: n)). split; [apply app_removelast_last; discriminate|]. apply digit_is, H0.
  - destruct r as [|c r]; [exact I|]. cbn. intros X. apply numeric_is in X. rewrite X in H. discriminate.
  - right. apply andb_prop in H as [H1 H2]. exists c, r. split; [apply orb_prop in H1 as [H1|H1]; apply N.eqb_eq in H1; auto|]. split; [reflexivity|].
    destruct r as [|d r]; [exact I|]. cbn. intros X. apply numeric_is in X. rewrite X in H2. discriminate.
Qed.

(** The part of [s] before its suffix [r]. *)
Definition before (s r : str) : str := firstn (List.length s - List.length r) s.
Definition in_dec {A} (cs : str) (l : list (str * A)) (v : A) (H : assoc_str cs l = Some v) : In (cs, v) l := assoc_str_in A cs l v H.

Ltac computed := vm_compute; reflexivity.
Ltac d_blank := apply blank_white; computed.
Ltac d_control := apply control_dec; computed.
Ltac d_in := eapply in_dec; computed.
Ltac d_no := apply starts_dec; computed.
(** Redefined where some texts have known meanings. *)
Ltac d_known := fail.

(** White space after a command name [cs] at the start of [t], [r] after it. *)
Definition gap (cs t r : str) : str := before (skipn (S (List.length cs)) t) r.

(** The text after white space, and the group it starts with. *)
Definition group_at (k : gkind) (s : str) : option (str * str * str) :=
  let w := before s (trim_start s) in
  match trim_start s with
  | _ :: t => match group_content k t with (Ok g, r) => Some (w, g, r) | _ => None end
  | [] => None
  end.

Ltac d_nucleus :=
  lazymatch goal with |- nucleus ?h ?s _ _ _ =>
    let x := eval vm_compute in (lex_token s) in
    lazymatch x with
    | (Ok (TChr (?c :: ?r)), _) =>
        let b := eval vm_compute in (before s (c :: r)) in
        let sp := eval vm_compute in (special c, is_digit c) in
        lazymatch sp with
        | (false, _) => refine (N_char h b c r _ _); [d_blank|reflexivity]
        | (true, true) =>
            lazymatch h with
            | true => refine (N_digit b c r _ _); [d_blank|apply digit_is; reflexivity]
            | false =>
                let n := eval vm_compute in (numeral false (c :: r)) in
                let r' := eval vm_compute in (skipn (List.length n) (c :: r)) in
                refine (N_number b n r' _ _ _); [d_blank|apply digits_number; computed|apply after_number_dec; computed]
            end
        | _ =>
            let g := eval vm_compute in (group_content GKNormal r) in
            lazymatch g with (Ok ?g, ?r') =>
              refine (N_group h b g _ r' _ _ _); [d_blank|apply braces_dec; computed|d_formula]
            end
        end
    | (Ok (TCs ?cs), ?r) =>
        let t := eval vm_compute in (skip_blank false s) in
        let b := eval vm_compute in (before s t) in
        let w := eval vm_compute in (gap cs t r) in
        let y := eval vm_compute in (assoc_str cs commands, lookup_prim cs, assoc_str cs text_commands, assoc_str cs sizes) in
        lazymatch y with
        | (Some ?c, _, _, _) =>
            refine (N_command h b cs (92 :: cs ++ w ++ r) r c _ _ _ _ _ _); [d_blank|d_control|d_in|d_args]
        | (_, PSimple ?e, _, _) => refine (N_symbol h b cs (92 :: cs ++ w ++ r) e r _ _ _); [d_blank|d_control|computed]
        | (_, PSqrt, _, _) =>
            let o := eval vm_compute in (head_b (N.eqb 91) (trim_start r)) in
            lazymatch o with
            | false => refine (N_sqrt h b (92 :: cs ++ w ++ r) r _ _ _ _ _ _); [d_blank|d_control|d_no|d_nucleus]
            | true =>
                let g := eval vm_compute in (group_at GKOptional r) in
                lazymatch g with Some (?w', ?i, ?s') =>
                  refine (N_root h b (92 :: cs ++ w ++ w' ++ 91 :: i ++ 93 :: s') w' i _ s' _ _ _ _ _ _ _ _);
                    [d_blank|d_control|computed|apply brackets_dec; computed|d_formula|d_nucleus]
                end
            end
        | (_, _, Some ?f, _) =>
            let g := eval vm_compute in (group_at GKNormal r) in
            lazymatch g with Some (?w', ?x, ?r') =>
              refine (N_text h b cs (92 :: cs ++ w ++ w' ++ 123 :: x ++ 125 :: r') f w' x r' _ _ _ _ _);
                [d_blank|d_control|d_in|computed|apply braces_dec; computed]
            end
        | (_, _, _, Some ?z) =>
            let d := eval vm_compute in (lex_delimiter r) in
            lazymatch d with (Ok (?c, ?ty), ?r') =>
              refine (N_sized h b cs (92 :: cs ++ w ++ r) z r c ty r' _ _ _ _); [d_blank|d_control|d_in|d_delimiter]
            end
        | (_, PLeft, _, _) =>
            let o := eval vm_compute in (match r with 46 :: r' => (None, r') | _ => match lex_delimiter r with (Ok (c, _), r') => (Some c, r') | _ => (None, []) end end) in
            lazymatch o with (?o, ?r1) =>
            let g := eval vm_compute in (group_content GKLeftRight r1) in
            lazymatch g with (Ok ?g, ?s') =>
            let c := eval vm_compute in (match s' with 46 :: r' => (None, r') | _ => match lex_delimiter s' with (Ok (c, _), r') => (Some c, r') | _ => (None, []) end end) in
            lazymatch c with (?c, ?r2) =>
              refine (N_left h b (92 :: cs ++ w ++ r) r o g s' c _ r2 _ _ _ _ _ _);
                [d_blank|d_control|d_delimiter_opt|apply (proj1 (group_content_iff GKLeftRight _ _ _)); computed|d_delimiter_opt|d_formula]
            end end end
        | (_, PXArrow ?c, _, _) =>
            let o := eval vm_compute in (head_b (N.eqb 91) (trim_start r)) in
            lazymatch o with
            | false => refine (N_xarrow h b cs (92 :: cs ++ w ++ r) c r _ _ _ _ _ _ _); [d_blank|d_control|d_in|d_no|d_nucleus]
            | true =>
                let g := eval vm_compute in (group_at GKOptional r) in
                lazymatch g with Some (?w', ?i, ?s') =>
                  refine (N_xarrow_below h b cs (92 :: cs ++ w ++ w' ++ 91 :: i ++ 93 :: s') c w' i _ s' _ _ _ _ _ _ _ _ _);
                    [d_blank|d_control|d_in|computed|apply brackets_dec; computed|d_formula|d_nucleus]
                end
            end
        | (_, PDots, _, _) => refine (N_dots h b (92 :: cs ++ w ++ r) r _ _); [d_blank|d_control]
        | (_, POperatorname, _, _) =>
            let g := eval vm_compute in (group_at GKNormal r) in
            lazymatch g with Some (?w', ?x, ?r') =>
              refine (N_operator h b (92 :: cs ++ w ++ w' ++ 123 :: x ++ 125 :: r') w' x r' _ _ _ _);
                [d_blank|d_control|computed|apply braces_dec; computed]
            end
        | (_, PSubstack, _, _) =>
            let g := eval vm_compute in (group_at GKNormal r) in
            lazymatch g with Some (?w', ?x, ?r') =>
              refine (N_substack h b (92 :: cs ++ w ++ w' ++ 123 :: x ++ 125 :: r') w' x _ r' _ _ _ _ _);
                [d_blank|d_control|computed|apply braces_dec; computed|d_formula]
            end
        | (_, PMiddle, _, _) =>
            let d := eval vm_compute in (lex_delimiter r) in
            lazymatch d with (Ok (?c, ?ty), ?r') =>
              refine (N_middle h b (92 :: cs ++ w ++ r) r c ty r' _ _ _); [d_blank|d_control|d_delimiter]
            end
        | (_, PTextcolor, _, _) =>
            let g := eval vm_compute in (group_at GKNormal r) in
            lazymatch g with Some (?w', ?x, ?r') =>
              refine (N_textcolor h b (92 :: cs ++ w ++ w' ++ 123 :: x ++ 125 :: r') w' x _ r' _ _ _ _ _ _ _ _);
                [d_blank|d_control|computed|apply braces_dec; computed|vm_compute; reflexivity|d_nucleus]
            end
        | (_, PSideset, _, _) =>
            let a := eval vm_compute in (snd (lex_argument r)) in
            let a' := eval vm_compute in (snd (lex_argument a)) in
            refine (N_sideset h b (92 :: cs ++ w ++ r) r a a' _ _ _ _ _ _ _ _); [d_blank|d_control|d_argument|d_argument|d_nucleus]
        | (_, PBuildrel, _, _) =>
            let x := eval vm_compute in (content_with_suffix (lit "\over") r) in
            lazymatch x with (Ok ?x, ?s') =>
              refine (N_buildrel h b (92 :: cs ++ w ++ r) r x _ s' _ _ _ _ _ _ _);
                [d_blank|d_control|apply content_with_suffix_iff; [discriminate|computed]|d_over|d_nucleus]
            end
        | (_, PBegin, _, _) =>
            let g := eval vm_compute in (group_at GKNormal r) in
            lazymatch g with Some (?w', ?name, ?s1) =>
            let e := eval vm_compute in (assoc_str name environments) in
            lazymatch e with Some ?e =>
            let k := eval vm_compute in (kind_of name) in
            let l := eval vm_compute in (horizontal_lines s1) in
            lazymatch l with (Ok ?ls, ?s2) =>
            let c := eval vm_compute in (group_content k s2) in
            lazymatch c with (Ok ?g, ?r') =>
              refine (N_env h b (92 :: cs ++ w ++ w' ++ 123 :: name ++ 125 :: s1) w' name s1 e s1 ls s2 g _ r' _ _ _ _ _ _ _);
                [d_blank|d_control|computed|apply EA_plain; d_in|d_lines|
                 change (enclosed (opening_str k) (closing_str k) s2 g r'); apply (proj1 (group_content_iff k _ _ _)); computed|d_formula]
            end end end end
        end
    end
  end
with d_argument :=
  lazymatch goal with |- one_argument ?s ?r =>
    let o := eval vm_compute in (head_b (N.eqb 123) (trim_start s)) in
    lazymatch o with
    | true =>
        let g := eval vm_compute in (group_at GKNormal s) in
        lazymatch g with Some (?w, ?g, ?s') => refine (OA_group w g s' _ _); [computed|apply braces_dec; computed] end
    | false =>
        let x := eval vm_compute in (lex_token s) in
        let t := eval vm_compute in (skip_blank false s) in
        let b := eval vm_compute in (before s t) in
        lazymatch x with
        | (Ok (TChr (?c :: _)), _) => refine (OA_char b c r _ _ _ _ _); [d_blank|reflexivity|discriminate|discriminate|left; discriminate]
        | (Ok (TCs ?cs), _) =>
            let w := eval vm_compute in (gap cs t r) in
            refine (OA_control b cs (92 :: cs ++ w ++ r) r _ _); [d_blank|d_control]
        end
    end
  end
with d_over :=
  lazymatch goal with |- over ?s _ =>
    let o := eval vm_compute in (head_b (N.eqb 123) (trim_start s)) in
    lazymatch o with
    | true =>
        let g := eval vm_compute in (group_at GKNormal s) in
        lazymatch g with Some (?w, ?g, ?s') => refine (O_group w g _ s' _ _ _ _); [computed|apply braces_dec; computed|d_formula|computed] end
    | false =>
        let x := eval vm_compute in (lex_token s) in
        let t := eval vm_compute in (skip_blank false s) in
        let b := eval vm_compute in (before s t) in
        lazymatch x with
        | (Ok (TChr (?c :: ?r)), _) => refine (O_char b c r _ _ _); [d_blank|reflexivity|computed]
        | (Ok (TCs ?cs), ?r) =>
            let w := eval vm_compute in (gap cs t r) in
            refine (O_symbol b cs (92 :: cs ++ w ++ r) _ r _ _ _ _); [d_blank|d_control|computed|computed]
        end
    end
  end
with d_args :=
  lazymatch goal with |- arguments ?h ?ks ?s _ _ =>
    let ks := eval vm_compute in ks in
    lazymatch ks with
    | [] => apply A_nil
    | Whole :: ?ks' => refine (A_whole h ks' s _ _ _ _ _ _); [d_nucleus|d_args]
    | Inside :: ?ks' =>
        let o := eval vm_compute in (head_b (N.eqb 123) (trim_start s)) in
        lazymatch o with
        | false => refine (A_token h ks' s _ _ _ _ _ _ _); [d_no|d_nucleus|d_args]
        | true =>
            let g := eval vm_compute in (group_at GKNormal s) in
            lazymatch g with Some (?w, ?g, ?s') =>
              refine (A_inside h ks' w g _ s' _ _ _ _ _ _); [computed|apply braces_dec; computed|d_formula|d_args]
            end
        end
    end
  end
with d_delimiter :=
  lazymatch goal with |- delimiter ?s ?c ?ty ?r =>
    let x := eval vm_compute in (lex_token s) in
    let t := eval vm_compute in (skip_blank false s) in
    let b := eval vm_compute in (before s t) in
    lazymatch x with
    | (Ok (TChr _), _) => refine (D_char b c ty r _ _); [d_blank|vm_compute; repeat (first [left; reflexivity|right])]
    | (Ok (TCs ?cs), _) =>
        let w := eval vm_compute in (gap cs t r) in
        refine (D_command b cs (92 :: cs ++ w ++ r) c ty r _ _ _); [d_blank|d_control|d_in]
    end
  end
with d_delimiter_opt :=
  lazymatch goal with
  | |- delimiter_opt ?s None ?r => exact (DO_dot r)
  | |- delimiter_opt ?s (Some ?c) ?r =>
      let d := eval vm_compute in (lex_delimiter s) in
      lazymatch d with (Ok (_, ?ty), _) => refine (DO_some s c ty r _ _); [vm_compute; intros; discriminate|d_delimiter] end
  end
with d_lines :=
  lazymatch goal with
  | |- lines ?s [] _ => apply lines_none; computed
  | |- lines ?s (LSolid :: ?ls) ?r =>
      let w := eval vm_compute in (before s (trim_start s)) in
      let t := eval vm_compute in (skipn 6 (trim_start s)) in
      refine (L_solid w t ls r _ _); [computed|d_lines]
  | |- lines ?s (LDashed :: ?ls) ?r =>
      let w := eval vm_compute in (before s (trim_start s)) in
      let t := eval vm_compute in (skipn 10 (trim_start s)) in
      refine (L_dashed w t ls r _ _); [computed|d_lines]
  end
with d_modifiers :=
  lazymatch goal with |- modifiers ?p ?s _ _ =>
    let x := eval vm_compute in (begins_b (lit "\limits") s, begins_b (lit "\nolimits") s) in
    let w := eval vm_compute in (before s (trim_start s)) in
    lazymatch x with
    | (true, _) => let t := eval vm_compute in (skipn 7 (trim_start s)) in
        refine (M_limits p w t _ _ _ _); [computed|d_modifiers]
    | (_, true) => let t := eval vm_compute in (skipn 9 (trim_start s)) in
        refine (M_nolimits p w t _ _ _ _); [computed|d_modifiers]
    | _ => apply modifiers_none; computed
    end
  end
with d_scripts :=
  lazymatch goal with |- scripts ?p ?es ?s _ _ =>
    let t := eval vm_compute in (trim_start s) in
    let w := eval vm_compute in (before s t) in
    lazymatch t with
    | 95 :: ?t' => first
        [refine (S_sub_sup p es w t' _ _ _ _ _ _ _ _); [computed|d_nucleus|d_nucleus|d_no_script]
        |refine (S_sub p es w t' _ _ _ _ _); [computed|d_nucleus|d_no_script]]
    | 94 :: ?t' => first
        [refine (S_sup_sub p es w t' _ _ _ _ _ _ _ _); [computed|d_nucleus|d_nucleus|d_no_script]
        |refine (S_sup p es w t' _ _ _ _ _); [computed|d_nucleus|d_no_script]]
    | _ => apply S_none; d_no
    end
  end
with d_no_script := vm_compute; first [exact I|intros [?|?]; discriminate]
with d_formula := first [apply F_known; d_known|d_formula_text]
with d_formula_text :=
  lazymatch goal with |- formula ?al ?s _ =>
    let x := eval vm_compute in (lex_token s) in
    let t := eval vm_compute in (skip_blank false s) in
    let b := eval vm_compute in (before s t) in
    lazymatch x with
    | (Err _, _) => first [apply F_end; d_blank|
        let u := eval vm_compute in (trim_start s) in
        lazymatch u with 37 :: ?u' =>
          let b := eval vm_compute in (before s u) in
          refine (F_end_comment al b u' _ _); [d_blank|vm_compute; intuition discriminate]
        end]
    | (Ok (TChr (38 :: ?r)), _) =>
        lazymatch al with Some (?k, ?m) =>
          refine (F_mark k m b r _ _ _ _ _ _); [d_blank|computed|d_no|d_no|d_formula]
        end
    | (Ok (TChr (?c :: ?r)), _) =>
        let o := eval vm_compute in ((c =? 94) || (c =? 95)) in
        lazymatch o with
        | true => refine (F_element al s _ _ _ _ _);
            [refine (I_orphan b (c :: r) c r _ _ _ _ _ _); [d_blank|reflexivity|first [left; reflexivity|right; reflexivity]|d_scripts]|d_formula]
        | false => refine (F_element al s _ _ _ _ _); [refine (I_nucleus s _ _ _ _ _ _ _ _ _ _); [d_nucleus|d_placed|d_scripts]|d_formula]
        end
    | (Ok (TCs ?cs), ?r) =>
        let w := eval vm_compute in (gap cs t r) in
        let y := eval vm_compute in (assoc_str cs switches, existsb (str_eqb cs) newline_commands || str_eqb cs (lit "relax")) in
        lazymatch y with
        | (Some ?z, _) => refine (F_element al s _ r _ _ _); [refine (I_switch b cs (92 :: cs ++ w ++ r) z r _ _ _); [d_blank|d_control|d_in]|d_formula]
        | (_, true) => first [refine (F_element al s _ r _ _ _); [refine (I_relax b (92 :: cs ++ w ++ r) r _ _ _ _); [d_blank|d_control|d_no|d_no]|d_formula]|
            lazymatch al with Some (?k, ?m) =>
            let l := eval vm_compute in (horizontal_lines r) in
            lazymatch l with (Ok ?ls, ?s2) =>
              refine (F_row k m b cs (92 :: cs ++ w ++ r) r None r ls s2 _ _ _ _ _ _ _ _ _);
                [d_blank|vm_compute; repeat (first [left; reflexivity|right])|d_control|apply RS_none; d_no|d_lines|d_no|d_no|d_formula]
            end end]
        | _ => refine (F_element al s _ _ _ _ _); [refine (I_nucleus s _ _ _ _ _ _ _ _ _ _); [d_nucleus|d_placed|d_scripts]|d_formula]
        end
    end
  end
with d_placed :=
  lazymatch goal with |- placed ?l ?s _ _ =>
    let x := eval vm_compute in (fst l) in
    lazymatch x with
    | true => unfold placed; cbv [fst snd c_limits]; d_modifiers
    | false => split; reflexivity
    end
  end.

(** Derives [formula al s es] for concrete [s] and [es]. *)
Ltac derive := eapply formula_is; [let s := fresh in match goal with |- formula ?al ?t _ => let t' := eval vm_compute in t in change t with t' end; d_formula|vm_compute; reflexivity].

#[local] Existing Instance nothing_known.
Example derive_try : exists es, formula None (lit "\frac{a_1}{\sqrt[3] x}^2 + \sum\limits_{i=1}^n \left( i \right]% c") es.
Proof. eexists. derive. Qed.
Example derive_try2 : exists es, formula None (lit "x'\begin{bmatrix}\hline a & b \\ 2 & \alpha \\\hline \end{bmatrix}^T\mathbf{ab}\mathbf x {\bf x^2} \text{a b}1.5\bigl( _3") es.
Proof. eexists. derive. Qed.
Example derive_try3 : exists es, formula None (lit "\sideset{_a}b\sum_x\relax y\buildrel{a+b}\over=\buildrel\alpha\over c\xrightarrow[a]b\xleftarrow c\operatorname{lg}\dots\sum_{\substack{a\\b}}\textcolor{red}x") es.
Proof. eexists. derive. Qed.
