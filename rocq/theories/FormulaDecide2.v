(** * FormulaDecide2: the decision. *)

From Coq Require Import Ascii String List NArith ZArith Bool Lia Arith.
From Verif Require Import Base Float32 Event Tables Prim PrimTable Lex Macros Primitives
  SpecLex SpecNum LexFacts LexMore LexNum SpecFormula FormulaLex FormulaNucleus4 FormulaCompose FormulaDerive
  SpecFault FormulaFault FormulaFirst SpecBeyond FormulaDecide Keep.
Import ListNotations.
Open Scope N_scope.
Open Scope list_scope.

(** ** Texts *)

Definition ends (r s : str) : Prop := exists a, s = a ++ r.

Lemma ends_trans : forall a b c, ends a b -> ends b c -> ends a c.
Proof. intros a b c (x & ->) (y & ->). exists (y ++ x). apply app_assoc. Qed.
Lemma ends_app : forall a r, ends r (a ++ r).
Proof. intros a r. exists a. reflexivity. Qed.
Lemma ends_cons : forall c r, ends r (c :: r).
Proof. intros c r. exists [c]. reflexivity. Qed.
Lemma ends_part : forall r s, ends r s -> part r s.
Proof. intros r s (a & ->). apply part_end. Qed.
Lemma control_ends : forall cs t r, control cs t r -> ends r t.
Proof. intros cs t r (w & -> & _). exists (92 :: cs ++ w). cbn. rewrite <- app_assoc. reflexivity. Qed.
Lemma control_ends_b : forall b cs t r, control cs t r -> ends r (b ++ t).
Proof. intros b cs t r H. eapply ends_trans; [eapply control_ends, H|apply ends_app]. Qed.
Lemma part_group : forall w o g c r, ~ letter c -> part g (w ++ o :: g ++ c :: r).
Proof. intros w o g c r H. exists (w ++ [o]), (c :: r). split; [rewrite <- app_assoc; reflexivity|exact H]. Qed.
Lemma ends_group : forall w o g c r, ends r (w ++ o :: g ++ c :: r).
Proof. intros w o g c r. exists (w ++ o :: g ++ [c]). rewrite <- app_assoc. cbn. rewrite <- app_assoc. reflexivity. Qed.

Lemma delimiter_ends : forall s c ty r, delimiter s c ty r -> ends r s.
Proof.
  intros s c ty r [b c0 ty0 r0 Hb Hin|b cs t c0 ty0 r0 Hb Hc Hin]; [|eapply control_ends_b, Hc]. exists (b ++ [c0]). rewrite <- app_assoc. reflexivity.
Qed.
Lemma delimiter_opt_ends : forall s o r, delimiter_opt s o r -> ends r s /\ (length r < length s)%nat.
Proof.
  intros s o r [r0|s0 c ty r0 Hn Hd]; [split; [apply ends_cons|cbn; lia]|]. split; [eapply delimiter_ends, Hd|eapply delimiter_read, Hd].
Qed.

Lemma group_or : forall s, (exists w x r, white w /\ balanced 123 125 x /\ s = w ++ 123 :: x ++ 125 :: r) \/ exists e, no_group s e.
Proof.
  intros s. destruct (starts_or 123 s eq_refl) as [(w & s' & Hw & ->)|Hs].
  - destruct (braces_or s') as [(g & r & Hg & ->)|Hu]; [left; exists w, g, r; auto|right]. eexists. apply NG_open; assumption.
  - right. pose proof (token_back s) as Hk. destruct (lex_token s) as [[[cs|ctx]|e'|p'|] r0] eqn:Et; try contradiction.
    + destruct Hk as (b & t & Hb & -> & Hc). eexists. eapply NG_command; eassumption.
    + destruct Hk as (b & c & Hb & -> & -> & H1 & H2 & H3). eexists. apply NG_char; assumption.
    + destruct e'; try (destruct Hk as [? _]; discriminate); [|eexists; apply NG_end; exact Hk].
      destruct Hk as (_ & b & Hb & ->). eexists. apply NG_backslash, Hb.
Qed.

Lemma limits_or : forall l : limits, l = no_limits \/ l <> no_limits.
Proof. intros [[] [p|]]; ((right; discriminate) || (left; reflexivity)). Qed.

(** ** Names *)

Definition is_in (cs : str) (l : list str) : bool := existsb (str_eqb cs) l.
Lemma is_in_true : forall cs l, is_in cs l = true -> In cs l.
Proof. intros cs l H. apply existsb_exists in H as (x & Hx & E). apply str_eqb_eq in E. subst x. exact Hx. Qed.

Definition is_symbol (cs : str) : bool := match lookup_prim cs with PSimple _ => true | _ => false end.

Definition class_b (cs : str) : bool :=
  is_symbol cs || is_in cs (map fst commands) || is_in cs (lit "sqrt" :: map fst xarrows) || is_in cs (lit "operatorname" :: map fst text_commands) ||
  is_in cs between || is_in cs [lit "right"; lit "end"; lit "endgroup"] || is_in cs (lit "left" :: lit "middle" :: map fst sizes) ||
  is_in cs [lit "begin"; lit "textcolor"; lit "dots"; lit "colorbox"; lit "fcolorbox"; lit "substack"; lit "Space"; lit "genfrac"; lit "sideset"] || is_in cs class_names || is_in cs (map fst spaces) || is_in cs [lit "hspace"; lit "char"] || is_in cs other_commands.

Inductive class (cs : str) : Prop :=
| K_unknown : ~ supported cs -> class cs
| K_symbol : forall e, symbol cs e -> class cs
| K_command : forall c, In (cs, c) commands -> class cs
| K_root : In cs (lit "sqrt" :: map fst xarrows) -> class cs
| K_text : takes_text cs -> class cs
| K_between : In cs between -> class cs
| K_unbalanced : In cs [lit "right"; lit "end"; lit "endgroup"] -> class cs
| K_delimiter : In cs (lit "left" :: lit "middle" :: map fst sizes) -> class cs
| K_special : In cs [lit "begin"; lit "textcolor"; lit "dots"; lit "colorbox"; lit "fcolorbox"; lit "substack"; lit "Space"; lit "genfrac"; lit "sideset"] -> class cs
| K_class : In cs class_names -> class cs
| K_length : In cs (map fst spaces) -> class cs
| K_number : In cs [lit "hspace"; lit "char"] -> class cs
| K_other : In cs other_commands -> class cs.

Lemma all_classes : forallb (fun p => class_b (fst p)) prim_table = true.
Proof. vm_compute. reflexivity. Qed.

Lemma classify : forall cs, class cs.
Proof.
  intros cs. destruct (in_or cs (map fst prim_table)) as [H|Hn].
  - apply in_map_iff in H as ((cs' & p) & <- & H). pose proof (proj1 (forallb_forall _ _) all_classes _ H) as Hc. cbn [fst] in *. clear H p.
    unfold class_b in Hc. rewrite !orb_true_iff in Hc. destruct Hc as [[[[[[[[[[[H|H]|H]|H]|H]|H]|H]|H]|H]|H]|H]|H].
    + unfold is_symbol in H. destruct (lookup_prim cs') eqn:E; try discriminate. exact (K_symbol _ _ E).
    + apply is_in_true, in_map_iff in H as ((cs & c) & <- & H). exact (K_command _ c H).
    + apply K_root, is_in_true, H.
    + apply K_text, is_in_true, H.
    + apply K_between, is_in_true, H.
    + apply K_unbalanced, is_in_true, H.
    + apply K_delimiter, is_in_true, H.
    + apply K_special, is_in_true, H.
    + apply K_class, is_in_true, H.
    + apply K_length, is_in_true, H.
    + apply K_number, is_in_true, H.
    + apply K_other, is_in_true, H.
  - assert (Ea : assoc_str cs prim_table = None).
    { destruct (assoc_str cs prim_table) as [p|] eqn:E; [|reflexivity]. apply assoc_str_in in E. exfalso. apply Hn. exact (in_map fst _ _ E). }
    destruct (control_sequence_delimiter_map cs) as [[c ty]|] eqn:Ed.
    { apply (K_symbol _ (EvContent (CDelimiter c None ty))). unfold symbol, lookup_prim. rewrite Ea, Ed. reflexivity. }
    destruct (is_nil (trim_start cs)) eqn:Et.
    { eapply K_symbol. unfold symbol, lookup_prim. rewrite Ea, Ed, Et. reflexivity. }
    apply K_unknown. intros [X|[X|X]]; [exact (Hn X)|..].
    + apply in_map_iff in X as ((cs' & d) & <- & X). apply cs_delims_ok in X. cbn [fst] in Ed. congruence.
    + assert (Hw : forallb is_ws cs = true) by (apply forallb_forall; apply Forall_forall; exact X). pose proof (trim_white cs [] Hw) as Y. rewrite app_nil_r in Y. rewrite Y in Et. discriminate.
Qed.

(** ** The shapes of commands *)

Definition is_arg (p : piece) : bool := match p with A _ => true | E _ => false end.

Lemma fill_none : forall b, filter is_arg b = [] -> exists p, forall ess, fill ess b = p.
Proof.
  intros b. induction b as [|[e|i] b IH]; intros H; [exists []; reflexivity| |discriminate]. destruct (IH H) as [p Hp]. exists (e :: p). intros ess. cbn. f_equal. apply Hp.
Qed.
Lemma fill_one : forall b i, filter is_arg b = [A i] -> exists p q, forall ess, fill ess b = p ++ nth i ess [] ++ q.
Proof.
  intros b i. induction b as [|[e|j] b IH]; intros H; [discriminate| |].
  - destruct (IH H) as (p & q & Hp). exists (e :: p), q. intros ess. cbn. f_equal. apply Hp.
  - cbn in H. injection H as -> H. destruct (fill_none b H) as [q Hq]. exists [], q. intros ess. cbn. f_equal. apply Hq.
Qed.
Lemma fill_two : forall b i j, filter is_arg b = [A i; A j] -> exists p q r, forall ess, fill ess b = p ++ (nth i ess [] ++ q ++ nth j ess []) ++ r.
Proof.
  intros b i j. induction b as [|[e|k] b IH]; intros H; [discriminate| |].
  - destruct (IH H) as (p & q & r & Hp). exists (e :: p), q, r. intros ess. cbn. f_equal. apply Hp.
  - cbn in H. injection H as -> H. destruct (fill_one b j H) as (p & q & Hq). exists [], p, q. intros ess. change (fill ess (A i :: b)) with (nth i ess [] ++ fill ess b). rewrite Hq. cbn [app]. rewrite <- !app_assoc. reflexivity.
Qed.

Definition shape_b (c : command) : bool :=
  match c_args c, filter is_arg (c_body c) with
  | [], [] => true
  | [_], [A 0] => true
  | [Whole; Whole], [A 0; A 1] => true
  | [Whole; Whole], [A 1; A 0] => true
  | _, _ => false
  end.
Lemma all_shapes : forallb (fun p => shape_b (snd p)) commands = true.
Proof. vm_compute. reflexivity. Qed.

(** ** Nuclei *)

Inductive apart : str -> Prop :=
| AP_end : forall s, nothing_left s -> apart s
| AP_char : forall b c r, blank b -> c = 94 \/ c = 95 \/ c = 38 -> apart (b ++ c :: r)
| AP_control : forall b cs t r, blank b -> control cs t r -> In cs between -> apart (b ++ t).

Definition reads (h : bool) (s : str) (l : limits) (r : str) : Prop :=
  (length r < length s)%nat /\ ends r s /\ outcome s (fun K es => @nucleus K h s es l r).

Definition nuc (al : option (N * N)) (h : bool) (s : str) : Prop :=
  (exists l r, (h = true -> l = no_limits) /\ reads h s l r) \/
  (exists e, @wrong anything al h s e) \/ beyond h s \/ (h = false /\ apart s).

Lemma nuc_wrong : forall al h s e, @wrong anything al h s e -> nuc al h s.
Proof. intros al h s e H. right. left. exists e. exact H. Qed.
Lemma nuc_beyond : forall al h s, beyond h s -> nuc al h s.
Proof. intros al h s H. right. right. left. exact H. Qed.
Lemma nuc_good : forall al h s es l r, (forall K, @nucleus K h s es l r) -> (h = true -> l = no_limits) -> (length r < length s)%nat -> ends r s -> nuc al h s.
Proof. intros al h s es l r H Hl Hr He. left. exists l, r. split; [exact Hl|]. split; [exact Hr|]. split; [exact He|]. left. exists es. apply H. Qed.

Lemma reads_any : forall h s l r, reads h s l r -> exists es, @nucleus anything h s es l r.
Proof. intros h s l r (_ & _ & H). apply (outcome_any s (fun K es => @nucleus K h s es l r)) in H; [exact H|apply mono_nucleus]. Qed.

Section Step.
Variables (n : nat) (al : option (N * N)).
Hypothesis Hnuc : forall h s, (length s < n)%nat -> nuc al h s.
Hypothesis Hform : forall al s, (length s < n)%nat -> outcome s (fun K es => @formula K al s es).

Definition arg (s : str) : Prop :=
  (exists r, reads true s no_limits r) \/ (exists e, @wrong anything al true s e) \/ beyond true s.

Lemma arg_nuc : forall s, nuc al true s -> arg s.
Proof.
  intros s [(l & r & Hl & H)|[H|[H|[H _]]]]; [|right; left; exact H|right; right; exact H|discriminate]. left. exists r. rewrite (Hl eq_refl) in H. exact H.
Qed.

Lemma arg_or : forall s, (length s < n)%nat -> arg s.
Proof. intros s H. apply arg_nuc, Hnuc, H. Qed.

Ltac lens := repeat (rewrite app_length in * || cbn [length] in *); lia.

Lemma command_decide : forall h b cs c t s, blank b -> control cs t s -> In (cs, c) commands -> (length (b ++ t) < S n)%nat -> nuc al h (b ++ t).
Proof.
  intros h b cs c t s Hb Hc Hin Hlen. pose proof (control_length _ _ _ Hc) as Hl. pose proof (control_ends_b b _ _ _ Hc) as He.
  assert (Hs : (length s < n)%nat) by lens.
  assert (Hlim : h = false \/ c_limits c = no_limits \/ nuc al h (b ++ t)).
  { destruct h; [|auto]. right. destruct (limits_or (c_limits c)) as [E|E]; [auto|right]. apply nuc_beyond. eapply B_limits; eassumption. }
  assert (Hlim' : (h = true -> c_limits c = no_limits) \/ nuc al h (b ++ t)) by (destruct Hlim as [Hlim|[Hlim|Hlim]]; [left; congruence|left; auto|right; exact Hlim]).
  destruct Hlim' as [Hlim'|Hx]; [|exact Hx]. clear Hlim.
  pose proof (proj1 (forallb_forall _ _) all_shapes _ Hin) as Hsh. cbn [snd] in Hsh. unfold shape_b in Hsh.
  assert (Hbad : forall e, @wrong_argument anything al h (c_args c) s e -> nuc al h (b ++ t)) by (intros e H; eapply nuc_wrong, W_command; eassumption).
  assert (Hbey : beyond_argument h (c_args c) s -> nuc al h (b ++ t)) by (intros H; eapply nuc_beyond, B_argument; eassumption).
  assert (Hok : forall r, (length r <= length s)%nat -> ends r s -> outcome s (fun K es => exists ess, @arguments K h (c_args c) s ess r /\ es = fill ess (c_body c)) -> nuc al h (b ++ t)).
  { intros r H1 H2 H3. left. exists (c_limits c), r. split; [exact Hlim'|]. split; [lens|]. split; [eapply ends_trans; eassumption|].
    eapply outcome_part; [apply ends_part, He|]. revert H3. apply outcome_imp. intros K es (ess & Ha & ->). eapply N_command; eassumption. }
  destruct (c_args c) as [|k1 ks] eqn:Ea.
  - destruct (filter is_arg (c_body c)) as [|x l] eqn:Ef; try discriminate.
    apply (Hok s); [lia|exists []; reflexivity|]. left. exists (fill [] (c_body c)), []. split; [constructor|reflexivity].
  - destruct ks as [|k2 ks].
    + destruct (filter is_arg (c_body c)) as [|[|[|]] [|]] eqn:Ef; try (destruct k1; discriminate). destruct (fill_one _ _ Ef) as (p & q & Hfill).
      destruct k1.
      * destruct (arg_or s Hs) as [(r & H1 & H2 & H3)|[[e H]|H]]; [|eapply Hbad, WA_here, H|apply Hbey, BA_here, H].
        apply (Hok r); [lia|exact H2|]. apply (outcome_wrap _ p _ q) in H3. revert H3. apply outcome_imp. intros K es (a & Ha & ->). exists [a]. split; [|symmetry; apply Hfill].
        eapply A_whole; [exact Ha|constructor].
      * destruct (starts_or 123 s eq_refl) as [(w & s' & Hw & ->)|Hns].
        { destruct (braces_or s') as [(g & r & Hg & ->)|Hu]; [|eapply Hbad, WA_inside_open; assumption].
          apply (Hok r); [lens|apply ends_group|]. assert (Hgl : (length g < n)%nat) by lens. pose proof (Hform None g Hgl) as H3.
          apply (outcome_part _ (w ++ 123 :: g ++ 125 :: r)) in H3; [|apply part_group; unfold letter; lia].
          apply (outcome_wrap _ p _ q) in H3. revert H3. apply outcome_imp. intros K es (a & Ha & ->). exists [a]. split; [|symmetry; apply Hfill].
          eapply A_inside; [exact Hw|exact Hg|exact Ha|constructor]. }
        destruct (Hnuc h s Hs) as [(l & r & _ & Hr)|[[e H]|[H|(-> & H)]]]; [|eapply Hbad, WA_inside; eassumption|apply Hbey, BA_inside; assumption|].
        { destruct (limits_or l) as [->|Hne].
          - destruct Hr as (H1 & H2 & H3). apply (Hok r); [lia|exact H2|]. apply (outcome_wrap _ p _ q) in H3. revert H3. apply outcome_imp. intros K es (a & Ha & ->). exists [a].
            split; [|symmetry; apply Hfill]. eapply A_token; [exact Hns|exact Ha|constructor].
          - apply reads_any in Hr as [es Hr]. apply Hbey. eapply BA_limits; eassumption. }
        destruct H as [s0 H|b0 c0 r0 Hb0 Hc0|b0 cs0 t0 r0 Hb0 Hc0 Hi].
        { eapply Hbad, WA_inside_end, H. }
        { apply Hbey, BA_script; assumption. }
        { apply Hbey. eapply BA_between; eassumption. }
    + assert (E : k1 = Whole /\ k2 = Whole /\ ks = []) by (destruct k1, k2, ks; try discriminate; auto). destruct E as (-> & -> & ->).
      destruct (arg_or s Hs) as [(r & Hr)|[[e H]|H]]; [|eapply Hbad, WA_here, H|apply Hbey, BA_here, H].
      pose proof (reads_any _ _ _ _ Hr) as [es0 Hany]. destruct Hr as (H1 & H2 & H3). assert (Hrn : (length r < n)%nat) by lia.
      destruct (arg_or r Hrn) as [(r' & H1' & H2' & H3')|[[e H]|H]];
        [|eapply Hbad, WA_later; [exact Hany|apply WA_here, H]|apply Hbey; eapply BA_later; [exact Hany|apply BA_here, H]].
      apply (Hok r'); [lia|eapply ends_trans; eassumption|]. apply (outcome_part _ s) in H3'; [|apply ends_part, H2].
      destruct (filter is_arg (c_body c)) as [|[|i] [|[|j] [|]]] eqn:Ef; try (destruct i as [|[|]]; discriminate); try (destruct i as [|[|]]; try discriminate; destruct j as [|[|]]; discriminate);
        try discriminate.
      destruct (fill_two _ _ _ Ef) as (p & q & r0 & Hfill).
      assert (Hij : i = 0%nat /\ j = 1%nat \/ i = 1%nat /\ j = 0%nat) by (destruct i as [|[|]], j as [|[|]]; try discriminate; auto).
      destruct Hij as [(-> & ->)|(-> & ->)].
      * pose proof (outcome_both s _ _ (mono_nucleus _ _ _ _) (mono_wrap q _ [] (mono_nucleus _ _ _ _)) H3 (outcome_wrap _ q _ [] H3')) as H4.
        apply (outcome_wrap _ p _ r0) in H4. revert H4. apply outcome_imp. intros K es (x & (a & y & Ha & (b0 & Hb0 & ->) & ->) & ->). exists [a; b0].
        split; [eapply A_whole; [exact Ha|eapply A_whole; [exact Hb0|constructor]]|]. rewrite Hfill. cbn [nth]. rewrite app_nil_r. reflexivity.
      * pose proof (outcome_both s _ _ (mono_nucleus _ _ _ _) (mono_wrap q _ [] (mono_nucleus _ _ _ _)) H3' (outcome_wrap _ q _ [] H3)) as H4.
        apply (outcome_wrap _ p _ r0) in H4. revert H4. apply outcome_imp. intros K es (x & (a & y & Ha & (b0 & Hb0 & ->) & ->) & ->). exists [b0; a].
        split; [eapply A_whole; [exact Hb0|eapply A_whole; [exact Ha|constructor]]|]. rewrite Hfill. cbn [nth]. rewrite app_nil_r. reflexivity.
Qed.

Lemma left_not_size : ~ In (lit "left") (map fst sizes).
Proof. apply not_in_dec. vm_compute. reflexivity. Qed.

Lemma root_decide : forall h b cs t s, blank b -> control cs t s -> In cs (lit "sqrt" :: map fst xarrows) -> (length (b ++ t) < S n)%nat -> nuc al h (b ++ t).
Proof.
  intros h b cs t s Hb Hc Hin Hlen. pose proof (control_length _ _ _ Hc) as Hl. pose proof (control_ends_b b _ _ _ Hc) as He.
  assert (Hs : (length s < n)%nat) by lens.
  assert (Hcs : cs = lit "sqrt" \/ exists c, In (cs, c) xarrows).
  { destruct Hin as [<-|Hin]; [left; reflexivity|right]. apply in_map_iff in Hin as ((cs' & c) & <- & Hin). exists c. exact Hin. }
  assert (Hok : forall r, (length r <= length s)%nat -> ends r s -> outcome (b ++ t) (fun K es => @nucleus K h (b ++ t) es no_limits r) -> nuc al h (b ++ t)).
  { intros r H1 H2 H3. left. exists no_limits, r. split; [reflexivity|]. split; [lens|]. split; [eapply ends_trans; eassumption|exact H3]. }
  destruct (starts_or 91 s eq_refl) as [(w & s' & Hw & ->)|Hns].
  - destruct (brackets_or s') as [(i & r & Hi & ->)|Hu].
    2:{ destruct (List.in_dec N.eq_dec 37 s') as [Hp|Hp]; [eapply nuc_beyond, B_option; eassumption|eapply nuc_wrong, W_option; eassumption]. }
    assert (Hr : (length r < n)%nat) by lens. assert (Hil : (length i < n)%nat) by lens.
    destruct (arg_or r Hr) as [(r' & H1 & H2 & H3)|[[e H]|H]]; [| |eapply nuc_beyond, B_root; eassumption].
    + apply (Hok r'); [lens|eapply ends_trans; [exact H2|apply ends_group]|].
      pose proof (outcome_part _ (b ++ t) _ (ends_part _ _ (ends_trans _ _ _ (ends_group w 91 i 93 r) He)) H3) as H4.
      pose proof (outcome_part _ (b ++ t) _ (part_trans _ _ _ (part_group w 91 i 93 r ltac:(unfold letter; lia)) (ends_part _ _ He)) (Hform None i Hil)) as H5.
      destruct Hcs as [->|[c Hx]].
      * pose proof (outcome_wrap _ [EvVisual VRoot] _ [] (outcome_both _ _ _ (mono_nucleus _ _ _ _) (mono_formula _ _) H4 H5)) as H6. revert H6.
        apply outcome_imp. intros K es (a & (x & y & Hx & Hy & ->) & ->). rewrite app_nil_r. cbn [app]. eapply N_root; eassumption.
      * pose proof (outcome_wrap _ [EvScript STSubSup SPAboveBelow; rel c; EvBegin GNormal] _ [] (outcome_both _ _ _ (mono_formula _ _) (mono_wrap [EvEnd] _ [] (mono_nucleus _ _ _ _)) H5
          (outcome_wrap _ [EvEnd] _ [] H4))) as H6. revert H6.
        apply outcome_imp. intros K es (a & (x & y & Hxx & (z & Hz & ->) & ->) & ->). rewrite !app_nil_r. cbn [app]. eapply N_xarrow_below; eassumption.
    + destruct Hcs as [->|[c Hx]]; [eapply nuc_wrong, W_root; eassumption|eapply nuc_wrong, W_xarrow_below; eassumption].
  - destruct (arg_or s Hs) as [(r' & H1 & H2 & H3)|[[e H]|H]]; [| |eapply nuc_beyond, B_sqrt; eassumption].
    + apply (Hok r'); [lia|exact H2|]. pose proof (outcome_part _ (b ++ t) _ (ends_part _ _ He) H3) as H4. destruct Hcs as [->|[c Hx]].
      * pose proof (outcome_wrap _ [EvVisual VSqrt] _ [] H4) as H6. revert H6.
        apply outcome_imp. intros K es (a & Ha & ->). rewrite app_nil_r. cbn [app]. eapply N_sqrt; eassumption.
      * pose proof (outcome_wrap _ [above; rel c] _ [] H4) as H6. revert H6.
        apply outcome_imp. intros K es (a & Ha & ->). rewrite app_nil_r. cbn [app]. eapply N_xarrow; eassumption.
    + destruct Hcs as [->|[c Hx]]; [eapply nuc_wrong, W_sqrt; eassumption|eapply nuc_wrong, W_xarrow; eassumption].
Qed.

Lemma text_decide : forall h b cs t s, blank b -> control cs t s -> takes_text cs -> nuc al h (b ++ t).
Proof.
  intros h b cs t s Hb Hc Ht. pose proof (control_length _ _ _ Hc) as Hl. pose proof (control_ends_b b _ _ _ Hc) as He.
  destruct (group_or s) as [(w & x & r & Hw & Hx & ->)|[e Hg]].
  - pose proof (ends_trans _ _ _ (ends_group w 123 x 125 r) He) as Hr. unfold takes_text in Ht. cbn [In] in Ht. destruct Ht as [<-|Ht].
    + destruct h; [eapply nuc_beyond, B_operator; [eassumption..|left; reflexivity]|].
      eapply nuc_good; [intros K; eapply N_operator; eassumption|discriminate|lens|exact Hr].
    + apply in_map_iff in Ht as ((cs' & f) & <- & Ht). eapply nuc_good; [intros K; eapply N_text; eassumption|reflexivity|lens|exact Hr].
  - inversion Hg; subst.
    + eapply nuc_wrong, W_text_end; eassumption.
    + eapply nuc_wrong, W_text_backslash; eassumption.
    + eapply nuc_wrong, W_text_open; eassumption.
    + eapply nuc_beyond. eapply B_text; eassumption.
    + eapply nuc_wrong. eapply W_text_command; eassumption.
Qed.

Lemma between_decide : forall h b cs t s, blank b -> control cs t s -> In cs between -> nuc al h (b ++ t).
Proof.
  intros h b cs t s Hb Hc Hi. destruct h; [|right; right; right; split; [reflexivity|eapply AP_control; eassumption]].
  unfold between in Hi. cbn [In] in Hi. destruct Hi as [<-|[<-|Hi]]; [eapply nuc_wrong, W_relax; eassumption|eapply nuc_beyond, B_switch; [eassumption..|left; reflexivity]|].
  apply in_app_or in Hi as [Hi|Hi]; [eapply nuc_wrong, W_row; [eassumption..|auto]|eapply nuc_beyond, B_switch; [eassumption..|right; exact Hi]].
Qed.

Lemma delimiter_decide : forall h b cs t s, blank b -> control cs t s -> In cs (lit "left" :: lit "middle" :: map fst sizes) -> (length (b ++ t) < S n)%nat -> nuc al h (b ++ t).
Proof.
  intros h b cs t s Hb Hc Hi Hlen. pose proof (control_length _ _ _ Hc) as Hl. pose proof (control_ends_b b _ _ _ Hc) as He.
  destruct (in_or cs [lit "left"]) as [[<-|[]]|Hnl].
  - destruct (delimiter_opt_or s) as [(o & s1 & Ho)|(Hd & e & Hn)]; [|eapply nuc_wrong, W_delimiter; [eassumption..|left; exact Hd|exact Hn]].
    destruct (delimiter_opt_ends _ _ _ Ho) as [He1 Hl1].
    destruct (closed_or GKLeftRight s1) as [(g & s2 & Hg)|Hu]; [|eapply nuc_wrong, W_left; [eassumption..|exact Hu]].
    pose proof (enclosed_text _ _ _ _ _ Hg) as Et. change (closing_str GKLeftRight) with (lit "\right") in *. change (opening_str GKLeftRight) with (lit "\left") in *.
    destruct (delimiter_opt_or s2) as [(c & r & Hd)|(Hd & e & Hn)]; [|eapply nuc_wrong, W_right; eassumption].
    destruct (delimiter_opt_ends _ _ _ Hd) as [He2 Hl2]. rewrite Et in *.
    assert (Hgl : (length g < n)%nat) by (rewrite app_length in *; lia). left. exists no_limits, r. split; [reflexivity|]. split; [rewrite !app_length in *; lia|].
    split; [eapply ends_trans; [exact He2|]; eapply ends_trans; [|eapply ends_trans; [exact He1|exact He]]; exists (g ++ lit "\right"); rewrite <- app_assoc; reflexivity|].
    pose proof (Hform None g Hgl) as H3. apply (outcome_part _ (b ++ t)) in H3.
    2:{ eapply part_trans; [|apply ends_part; eapply ends_trans; [exact He1|exact He]]. exists [], (lit "\right" ++ s2). split; [reflexivity|]. unfold letter. cbn. lia. }
    apply (outcome_wrap _ [EvBegin (GLeftRight o c)] _ [EvEnd]) in H3. revert H3. apply outcome_imp. intros K es (a & Ha & ->). cbn [app]. eapply N_left; eassumption.
  - destruct (delimiter_or s) as [(c & ty & r & Hd)|(e & Hn)]; [|eapply nuc_wrong, W_delimiter; [eassumption..|right; intros ->; apply Hnl; left; reflexivity|exact Hn]].
    pose proof (delimiter_ends _ _ _ _ Hd) as He1. destruct (delimiter_read _ _ _ _ Hd) as [_ Hl1]. assert (Hr : (length r < length (b ++ t))%nat) by (rewrite app_length; lia).
    pose proof (ends_trans _ _ _ He1 He) as He2. cbn [In] in Hi. destruct Hi as [Hi|[<-|Hi]]; [exfalso; apply Hnl; left; exact Hi|..].
    + eapply nuc_good; [intros K; eapply N_middle; eassumption|reflexivity|exact Hr|exact He2].
    + apply in_map_iff in Hi as ((cs' & z) & <- & Hi). eapply nuc_good; [intros K; eapply N_sized; eassumption|reflexivity|exact Hr|exact He2].
Qed.

Definition named_kind (name : str) : bool :=
  existsb (fun q => str_eqb name (fst q) && str_eqb (opening_str (snd q)) (begin_of name) && str_eqb (closing_str (snd q)) (end_of name)) kinds.
Lemma all_kinds : forallb named_kind environment_names = true.
Proof. vm_compute. reflexivity. Qed.
Lemma kind_named : forall name, In name environment_names -> exists k, In (name, k) kinds /\ opening_str k = begin_of name /\ closing_str k = end_of name.
Proof.
  intros name Hi. pose proof (proj1 (forallb_forall _ _) all_kinds _ Hi) as Hk. unfold named_kind in Hk.
  apply existsb_exists in Hk as ((name0 & k) & Hk & E). cbn [fst snd] in E. apply andb_prop in E as [E E3]. apply andb_prop in E as [E1 E2]. apply str_eqb_eq in E1, E2, E3. subst name0.
  exists k. auto.
Qed.

Lemma ends_refl : forall s, ends s s.
Proof. intros s. exists []. reflexivity. Qed.

Lemma env_args_ends : forall name s e r, env_args name s e r -> ends r s.
Proof. intros name s e r H. destruct H; try apply ends_refl; apply ends_group. Qed.


Lemma columns_or : forall x, (exists cols, columns x cols) \/ exists a cols c y, x = a ++ c :: y /\ columns a cols /\ ~ In c (map fst column_chars).
Proof.
  induction x as [|c x IH]; [left; exists []; constructor|]. destruct (List.in_dec N.eq_dec c (map fst column_chars)) as [Hc|Hc].
  - apply in_map_iff in Hc as ((c' & k) & <- & Hc). cbn [fst]. destruct IH as [[cols H]|(a & cols & d & y & -> & H & Hd)].
    + left. exists (k :: cols). constructor; assumption.
    + right. exists (c' :: a), (k :: cols), d, y. split; [reflexivity|]. split; [constructor; assumption|exact Hd].
  - right. exists [], [], c, x. split; [reflexivity|]. split; [constructor|exact Hc].
Qed.

Lemma array_or : forall name s, In name [lit "array"; lit "darray"] -> (exists e r, env_args name s e r) \/ (exists e, no_env_args name s e) \/ beyond_env name s.
Proof.
  intros name s Hin. destruct (group_or s) as [(w & x & r & Hw & Hx & ->)|[e Hg]].
  2:{ right. left. exists e. apply NE_group; [|exact Hg]. apply in_or_app. left. cbn [In] in *. tauto. }
  destruct (columns_or x) as [[cols Hc]|(a & cols & c & y & -> & Hc & Hn)].
  - destruct (column_count cols) as [|n'] eqn:Ec; [right; left; eexists; eapply NE_no_columns; eassumption|].
    destruct (N.lt_ge_cases (N.of_nat n') 65534) as [Hlt|Hge].
    + left. destruct Hin as [<-|[<-|[]]]; do 2 eexists; [eapply EA_array|eapply EA_darray]; eassumption.
    + right. right. apply (BE_columns name w x cols); try assumption. lia.
  - destruct (N.lt_ge_cases (N.of_nat (column_count cols)) 65535) as [Hlt|Hge].
    + right. left. eexists. eapply NE_column; eassumption.
    + right. right. rewrite <- app_assoc. apply (BE_columns name w a cols); assumption.
Qed.

Lemma digits_or : forall x, digits x \/ ~ digits x.
Proof.
  intros x. destruct (forallb is_digit x) eqn:E.
  - left. apply Forall_forall. intros c Hc. apply digit_is. exact (proj1 (forallb_forall _ _) E c Hc).
  - right. intros H. assert (X : forallb is_digit x = true) by (apply forallb_forall; intros c Hc; apply digit_is; exact (proj1 (Forall_forall _ _) H c Hc)). congruence.
Qed.

Lemma pairs_or : forall name s, In name (map fst pair_environments) -> (exists e r, env_args name s e r) \/ (exists e, no_env_args name s e) \/ beyond_env name s.
Proof.
  intros name s Hin. destruct (group_or s) as [(w & x & r & Hw & Hx & ->)|[e Hg]].
  2:{ right. left. exists e. apply NE_group; [|exact Hg]. apply in_or_app. right. exact Hin. }
  destruct x as [|c x]; [right; left; eexists; apply NE_pairs; try assumption; exact I|].
  destruct (is_digit c) eqn:Ed.
  - apply digit_is in Ed. destruct (digits_or (c :: x)) as [Hd|Hd]; [|right; right; apply BE_number; try assumption; tauto].
    pose proof (decimal_nonneg _ Hd) as H0. destruct (Z.leb_spec (decimal_of (c :: x)) 32767) as [Hle|Hgt].
    + left. apply in_map_iff in Hin as ((name' & g) & <- & Hin). do 2 eexists. apply (EA_pairs name' g w (c :: x) (Z.to_N (decimal_of (c :: x))) r); try assumption; [discriminate|lia|lia].
    + right. right. apply BE_number; try assumption. intros [_ X]. lia.
  - assert (Hnd : ~ digit c) by (intros X; apply digit_is in X; congruence).
    assert (Hs : number_sign c \/ ~ number_sign c).
    { unfold number_sign. destruct (N.eq_dec c 34); [tauto|]. destruct (N.eq_dec c 39); [tauto|]. destruct (N.eq_dec c 96); [tauto|]. destruct (N.lt_ge_cases c 128); [right; lia|tauto]. }
    destruct Hs as [Hs|Hs]; [right; right; cbn [app]; now apply BE_sign|]. right. left. eexists. apply NE_pairs; try assumption. cbn. tauto.
Qed.

Lemma env_or : forall name s, In name environment_names -> (exists e r, env_args name s e r) \/ (exists e, no_env_args name s e) \/ beyond_env name s \/
  exists w s', s = w ++ 91 :: s' /\ white w /\ In name (map fst starred_matrices) /\ unclosed [91] [93] s' /\ ~ In 37 s'.
Proof.
  intros name s Hi. unfold environment_names in Hi. repeat apply in_app_or in Hi as [Hi|Hi].
  - left. apply in_map_iff in Hi as ((name' & e) & <- & Hi). exists e, s. apply EA_plain. exact Hi.
  - destruct (starts_or 91 s eq_refl) as [(w & s' & Hw & ->)|Hs].
    + destruct (brackets_or s') as [(x & r & Hx & ->)|Hu].
      * destruct (in_or x (map fst alignments)) as [Ha|Ha]; [|right; left; eexists; apply NE_option; assumption].
        left. apply in_map_iff in Hi as ((name' & d) & <- & Hi). apply in_map_iff in Ha as ((x' & a) & <- & Ha). do 2 eexists. apply EA_starred_aligned; eassumption.
      * right. right. destruct (List.in_dec N.eq_dec 37 s') as [Hp|Hp]; [left; apply BE_matrix; assumption|right]. exists w, s'. auto.
    + left. apply in_map_iff in Hi as ((name' & d) & <- & Hi). do 2 eexists. apply EA_starred; eassumption.
  - cbn [In] in Hi. destruct Hi as [<-|[<-|[<-|[]]]].
    + destruct (array_or (lit "array") s) as [H|[H|H]]; [left; reflexivity|tauto..].
    + destruct (array_or (lit "darray") s) as [H|[H|H]]; [right; left; reflexivity|tauto..].
    + destruct (group_or s) as [(w & x & r & Hw & Hx & ->)|[e Hg]].
      2:{ right. left. exists e. apply NE_group; [|exact Hg]. apply in_or_app. left. cbn [In]. tauto. }
      destruct (in_or x (map fst alignments)) as [Ha|Ha]; [|right; left; eexists; apply NE_alignment; assumption].
      left. apply in_map_iff in Ha as ((x' & a) & <- & Ha). do 2 eexists. apply EA_subarray; eassumption.
  - destruct (pairs_or name s Hi) as [H|[H|H]]; tauto.
Qed.

Lemma env_wrap : forall e ls, exists p q, forall es, env_events e ls es = p ++ es ++ q.
Proof.
  intros e ls. unfold env_events.
  exists (match v_around e with Some (l, r) => [EvBegin (GLeftRight (Some l) (Some r))] | None => [] end ++ [EvBegin (v_group e)] ++
    match v_style e with Some s => [EvState (SCStyle s)] | None => [] end ++ match ls with [] => [] | _ => [EvFlow (EFStartLines ls)] end),
    ([EvEnd] ++ match v_around e with Some _ => [EvEnd] | None => [] end).
  intros es. destruct (v_around e) as [[l r]|], (v_style e), ls; reflexivity.
Qed.

Lemma begin_decide : forall h b t s, blank b -> control (lit "begin") t s -> (length (b ++ t) < S n)%nat -> nuc al h (b ++ t).
Proof.
  intros h b t s Hb Hc Hlen. pose proof (control_length _ _ _ Hc) as Hl. pose proof (control_ends_b b _ _ _ Hc) as He.
  destruct (group_or s) as [(w & name & r & Hw & Hx & ->)|[e Hg]]; [|eapply nuc_wrong, W_no_group; [eassumption..|left; reflexivity|exact Hg]].
  destruct (in_or name environment_names) as [Hi|Hn]; [|eapply nuc_wrong, W_environment; eassumption].
  destruct (kind_named _ Hi) as (k & Hk & E2 & E3).
  destruct (env_or name r Hi) as [(e & r1 & Hea)|[[e Hno]|[Hbe|(w' & s' & -> & Hw' & Hst & Hu & Hp)]]].
  2:{ eapply nuc_wrong, W_env_args; eassumption. }
  2:{ eapply nuc_beyond, B_environment; eassumption. }
  2:{ eapply nuc_wrong, W_env_option; eassumption. }
  pose proof (env_args_ends _ _ _ _ Hea) as Hr1.
  assert (Hlr : (length r1 <= length r)%nat) by (destruct Hr1 as [a0 ->]; rewrite app_length; lia).
  destruct (lines_total (S (length r1)) r1) as (ls & s2 & Hls); [lia|]. destruct (lines_end _ _ _ Hls) as [a Ea].
  destruct (closed_or k s2) as [(g & r' & Hg)|Hu]; rewrite E2, E3 in *; [|eapply nuc_wrong, W_env_open; eassumption].
  pose proof (enclosed_text _ _ _ _ _ Hg) as Et. pose proof (ends_group w 123 name 125 r) as He1.
  assert (He2 : ends s2 (b ++ t)) by (eapply ends_trans; [|eapply ends_trans; [exact He1|exact He]]; eapply ends_trans; [|exact Hr1]; rewrite Ea; apply ends_app).
  assert (Hl2 : (length s2 <= length r)%nat) by (rewrite Ea, app_length in Hlr; lia).
  assert (Hl3 : (length g + length r' <= length s2)%nat) by (rewrite Et, !app_length; lia).
  assert (Hgl : (length g < n)%nat) by lens. left. exists no_limits, r'. split; [reflexivity|]. split; [lens|].
  split; [eapply ends_trans; [|exact He2]; rewrite Et, app_assoc; apply ends_app|].
  pose proof (Hform (Some (0, v_marks e)) g Hgl) as H3. apply (outcome_part _ (b ++ t)) in H3.
  2:{ eapply part_trans; [|apply ends_part, He2]. exists [], (end_of name ++ r'). split; [exact Et|]. cbn. unfold letter. lia. }
  destruct (env_wrap e ls) as (p & q & Hpq). apply (outcome_wrap _ p _ q) in H3. revert H3. apply outcome_imp. intros K es (x & Hxx & ->). rewrite <- Hpq.
  eapply N_env; eassumption.
Qed.

Lemma textcolor_decide : forall h b t s, blank b -> control (lit "textcolor") t s -> (length (b ++ t) < S n)%nat -> nuc al h (b ++ t).
Proof.
  intros h b t s Hb Hc Hlen. pose proof (control_length _ _ _ Hc) as Hl. pose proof (control_ends_b b _ _ _ Hc) as He.
  destruct (group_or s) as [(w & x & r & Hw & Hx & ->)|[e Hg]]; [|eapply nuc_wrong, W_no_group; [eassumption..|right; right; left; reflexivity|exact Hg]].
  destruct (lex_color x) as [[c|]|e|p|] eqn:Ec.
  2:{ eapply nuc_wrong, (W_colour al h b (lit "textcolor")); try eassumption. right. left. reflexivity. }
  2-4: eapply nuc_beyond, (B_colour h b (lit "textcolor")); try eassumption; [right; left; reflexivity|intros ?; congruence].
  assert (Hr : (length r < n)%nat) by lens. pose proof (ends_trans _ _ _ (ends_group w 123 x 125 r) He) as He1.
  destruct (arg_or r Hr) as [(r' & H1 & H2 & H3)|[[e H]|H]]; [|eapply nuc_wrong, W_coloured; eassumption|eapply nuc_beyond, B_coloured; eassumption].
  left. exists no_limits, r'. split; [reflexivity|]. split; [lens|]. split; [eapply ends_trans; eassumption|].
  apply (outcome_part _ (b ++ t)) in H3; [|apply ends_part, He1]. apply (outcome_wrap _ [EvBegin GNormal; EvState (SCColor c CTText)] _ [EvEnd]) in H3. revert H3.
  apply outcome_imp. intros K es (y & Hy & ->). cbn [app]. eapply N_textcolor; eassumption.
Qed.

Lemma colour_or : forall x, (exists c, colour x c) \/ lex_color x = Ok None \/ forall o, lex_color x <> Ok o.
Proof.
  intros x. unfold colour. destruct (lex_color x) as [[c|]| | |]; [left; exists c; reflexivity|right; left; reflexivity|right; right; discriminate..].
Qed.

Lemma argument_or : forall s, (exists w x r, white w /\ balanced 123 125 x /\ s = w ++ 123 :: x ++ 125 :: r) \/ (exists e, no_argument s e) \/
  (exists b c r, blank b /\ is_ws c = false /\ c <> 37 /\ c <> 92 /\ ~ starts 123 (b ++ c :: r) /\ s = b ++ c :: r) \/
  exists b cs t r, blank b /\ control cs t r /\ s = b ++ t.
Proof.
  intros s. destruct (group_or s) as [H|[e H]]; [left; exact H|right]. inversion H; subst.
  - left. eexists. apply NA_end. assumption.
  - left. eexists. apply NA_backslash. assumption.
  - left. eexists. apply NA_open; assumption.
  - right. left. exists b, c, r. auto 8.
  - right. right. exists b, cs, t, r. auto.
Qed.

Lemma substack_decide : forall h b t s, blank b -> control (lit "substack") t s -> (length (b ++ t) < S n)%nat -> nuc al h (b ++ t).
Proof.
  intros h b t s Hb Hc Hlen. pose proof (control_length _ _ _ Hc) as Hl. pose proof (control_ends_b b _ _ _ Hc) as He.
  destruct (starts_or 123 s eq_refl) as [(w & s' & Hw & ->)|Hs]; [|eapply nuc_wrong, W_substack; eassumption].
  destruct (braces_or s') as [(g & r & Hg & ->)|Hu]; [|eapply nuc_wrong, W_substack_open; eassumption].
  assert (Hgl : (length g < n)%nat) by lens. left. exists no_limits, r. split; [reflexivity|]. split; [lens|].
  split; [eapply ends_trans; [apply ends_group|exact He]|]. pose proof (Hform (Some (0, 0)) g Hgl) as H3. apply (outcome_part _ (b ++ t)) in H3.
  2:{ eapply part_trans; [|apply ends_part; exact He]. apply part_group. unfold letter. lia. }
  apply (outcome_wrap _ [EvBegin (GSubArray CACenter)] _ [EvEnd]) in H3. revert H3. apply outcome_imp. intros K es (x & Hx & ->). cbn [app]. eapply N_substack; eassumption.
Qed.

Lemma box_decide : forall h b t s, blank b -> control (lit "colorbox") t s -> nuc al h (b ++ t).
Proof.
  intros h b t s Hb Hc. pose proof (control_length _ _ _ Hc) as Hl. pose proof (control_ends_b b _ _ _ Hc) as He.
  destruct (group_or s) as [(w & x & r & Hw & Hx & ->)|[e Hg]]; [|eapply nuc_wrong, W_no_group; [eassumption..|do 3 right; left; reflexivity|exact Hg]].
  destruct (colour_or x) as [[c Hcol]|[Hcol|Hcol]].
  2:{ eapply nuc_wrong, (W_colour al h b (lit "colorbox")); try eassumption. do 2 right. left. reflexivity. }
  2:{ eapply nuc_beyond, (B_colour h b (lit "colorbox")); try eassumption. do 2 right. left. reflexivity. }
  destruct (argument_or r) as [(w' & y & r' & Hw' & Hy & ->)|[[e Hn]|[(b' & c' & r' & Hb' & H1 & H2 & H3 & H4 & ->)|(b' & cs & t' & r' & Hb' & Hc' & ->)]]].
  - eapply nuc_good; [intros K; eapply N_colorbox; eassumption|reflexivity|lens|eapply ends_trans; [apply ends_group|]; eapply ends_trans; [apply ends_group|exact He]].
  - eapply nuc_wrong, W_box_text; try eassumption. apply NT_argument. exact Hn.
  - eapply nuc_beyond, B_box; eassumption.
  - eapply nuc_wrong, W_box_text; try eassumption. eapply NT_command; eassumption.
Qed.

Lemma frame_decide : forall h b t s, blank b -> control (lit "fcolorbox") t s -> nuc al h (b ++ t).
Proof.
  intros h b t s Hb Hc. pose proof (control_length _ _ _ Hc) as Hl. pose proof (control_ends_b b _ _ _ Hc) as He.
  destruct (group_or s) as [(w & x & r & Hw & Hx & ->)|[e Hg]]; [|eapply nuc_wrong, W_no_group; [eassumption..|do 4 right; left; reflexivity|exact Hg]].
  destruct (group_or r) as [(w' & x' & r' & Hw' & Hx' & ->)|[e Hg]]; [|eapply nuc_wrong, W_frame_group; eassumption].
  destruct (colour_or x) as [[c Hcol]|[Hcol|Hcol]].
  2:{ eapply nuc_wrong, W_frame_colour; try eassumption. left. exact Hcol. }
  2:{ eapply nuc_beyond, (B_colour h b (lit "fcolorbox")); try eassumption. do 3 right. left. reflexivity. }
  destruct (colour_or x') as [[c' Hcol']|[Hcol'|Hcol']].
  2:{ eapply nuc_wrong, W_frame_colour; try eassumption. right. split; [exists c; exact Hcol|exact Hcol']. }
  2:{ eapply nuc_beyond, B_frame; eassumption. }
  destruct (argument_or r') as [(w'' & y & r2 & Hw'' & Hy & ->)|[[e Hn]|[(b' & d & r2 & Hb' & H1 & H2 & H3 & H4 & ->)|(b' & cs & t' & r2 & Hb' & Hc' & ->)]]].
  - eapply nuc_good; [intros K; eapply N_fcolorbox; eassumption|reflexivity|lens|].
    eapply ends_trans; [apply ends_group|]. eapply ends_trans; [apply ends_group|]. eapply ends_trans; [apply ends_group|exact He].
  - eapply nuc_wrong, W_frame_text; try eassumption. apply NT_argument. exact Hn.
  - eapply nuc_beyond, B_frame_text; eassumption.
  - eapply nuc_wrong, W_frame_text; try eassumption. eapply NT_command; eassumption.
Qed.

(** A group contains a single character, or it does not. *)
Lemma single_or : forall g, (exists x c y, white x /\ white y /\ is_ws c = false /\ g = x ++ c :: y) \/
  forall x c y, white x -> white y -> is_ws c = false -> g <> x ++ c :: y.
Proof.
  intros g. destruct (trim g) as [|z [|z' l]] eqn:Et.
  - right. intros x c y Hx Hy Hc ->. rewrite trim_single in Et by assumption. discriminate.
  - left. apply trim_single_inv in Et as (x & y & H1 & H2 & H3 & H4). exists x, z, y. auto.
  - right. intros x c y Hx Hy Hc ->. rewrite trim_single in Et by assumption. discriminate.
Qed.

Lemma class_decide : forall h b cs t s, blank b -> control cs t s -> In cs class_names -> (length (b ++ t) < S n)%nat -> nuc al h (b ++ t).
Proof.
  intros h b cs t s Hb Hc Hin Hlen. pose proof (control_length _ _ _ Hc) as Hl. pose proof (control_ends_b b _ _ _ Hc) as He.
  assert (Hcs : (cs = lit "mathop" /\ (h = false \/ nuc al h (b ++ t))) \/ exists k, In (cs, k) classes).
  { destruct Hin as [<-|Hin].
    - left. split; [reflexivity|]. destruct h; [right; eapply nuc_beyond, B_operator; [eassumption..|right; left; reflexivity]|left; reflexivity].
    - right. apply in_map_iff in Hin as ((cs' & k) & <- & Hin). exists k. exact Hin. }
  destruct Hcs as [[Hop [Hh|Hx]]|Hcs]; [|exact Hx|].
  - (* mathop *) subst cs h.
    destruct (argument_or s) as [(w & g & r & Hw & Hg & ->)|[[e Hn]|[(b' & c & r & Hb' & H1 & H2 & H3 & H4 & ->)|(b' & cs & t' & r & Hb' & Hc' & ->)]]].
    + destruct (single_or g) as [(x & c & y & Hx & Hy & Hcw & ->)|Hmany].
      * rewrite <- app_assoc in Hc. cbn [app] in Hc. eapply nuc_good; [intros K; eapply (N_mathop_char _ b t w x c y r); eassumption|discriminate|lens|].
        eapply ends_trans; [|exact He]. rewrite app_comm_cons, app_assoc. rewrite <- app_assoc. cbn. exists (w ++ 123 :: x ++ c :: y ++ [125]). rewrite <- !app_assoc. cbn. rewrite <- !app_assoc. cbn. rewrite <- app_assoc. reflexivity.
      * eapply nuc_good; [intros K; eapply N_mathop_group; eassumption|discriminate|lens|eapply ends_trans; [apply ends_group|exact He]].
    + eapply nuc_wrong, W_class; eassumption.
    + eapply nuc_good; [intros K; eapply N_mathop_bare; eassumption|discriminate|lens|eapply ends_trans; [|exact He]; eapply ends_trans; [apply ends_cons|apply ends_app]].
    + assert (Hr : (length (b' ++ t') < n)%nat) by lens.
      destruct (arg_or _ Hr) as [(r' & H1 & H2 & H3)|[[e H]|H]]; [|eapply nuc_wrong, W_class_command; eassumption|eapply nuc_beyond, B_class; eassumption].
      left. exists movable, r'. split; [discriminate|]. split; [lens|]. split; [eapply ends_trans; eassumption|].
      apply (outcome_part _ (b ++ t)) in H3; [|apply ends_part, He]. apply (outcome_wrap _ [EvBegin GNormal] _ [EvEnd]) in H3. revert H3.
      apply outcome_imp. intros K es (y & Hy & ->). cbn [app]. eapply N_mathop_command; eassumption.
  - destruct Hcs as [k Hk].
    destruct (argument_or s) as [(w & g & r & Hw & Hg & ->)|[[e Hn]|[(b' & c & r & Hb' & H1 & H2 & H3 & H4 & ->)|(b' & cs' & t' & r & Hb' & Hc' & ->)]]].
    + destruct (single_or g) as [(x & c & y & Hx & Hy & Hcw & ->)|Hmany].
      * rewrite <- app_assoc in Hc. cbn [app] in Hc. eapply nuc_good; [intros K; eapply (N_class_char _ b cs t k w x c y r); eassumption|reflexivity|lens|].
        eapply ends_trans; [|exact He]. rewrite app_comm_cons, app_assoc. rewrite <- app_assoc. cbn. exists (w ++ 123 :: x ++ c :: y ++ [125]). rewrite <- !app_assoc. cbn. rewrite <- !app_assoc. cbn. rewrite <- app_assoc. reflexivity.
      * assert (Hgl : (length g < n)%nat) by lens. left. exists no_limits, r. split; [reflexivity|]. split; [lens|].
        split; [eapply ends_trans; [apply ends_group|exact He]|]. pose proof (Hform None g Hgl) as H3. apply (outcome_part _ (b ++ t)) in H3.
        2:{ eapply part_trans; [|apply ends_part; exact He]. apply part_group. unfold letter. lia. }
        apply (outcome_wrap _ [EvBegin GNormal; EvBegin GNormal] _ [EvEnd; EvEnd]) in H3. revert H3. apply outcome_imp. intros K es (x & Hx & ->). cbn [app]. eapply N_class_group; eassumption.
    + eapply nuc_wrong, W_class; eassumption.
    + eapply nuc_good; [intros K; eapply N_class_bare; eassumption|reflexivity|lens|eapply ends_trans; [|exact He]; eapply ends_trans; [apply ends_cons|apply ends_app]].
    + assert (Hr : (length (b' ++ t') < n)%nat) by lens.
      destruct (arg_or _ Hr) as [(r' & H1 & H2 & H3)|[[e H]|H]]; [|eapply nuc_wrong, W_class_command; eassumption|eapply nuc_beyond, B_class; eassumption].
      left. exists no_limits, r'. split; [reflexivity|]. split; [lens|]. split; [eapply ends_trans; eassumption|].
      apply (outcome_part _ (b ++ t)) in H3; [|apply ends_part, He]. apply (outcome_wrap _ [EvBegin GNormal] _ [EvEnd]) in H3. revert H3.
      apply outcome_imp. intros K es (y & Hy & ->). cbn [app]. eapply N_class_command; eassumption.
Qed.

(** *** Lengths *)

Lemma unit_or : forall d : dimension, dunit d = UMu \/ dunit d <> UMu.
Proof. intros [v []]; ((left; reflexivity) || (right; discriminate)). Qed.

Lemma not_closed : forall a r, Forall plain_char a -> ~ balanced 123 125 (a ++ 125 :: r).
Proof.
  intros a r Ha Hb. assert (Hb' : balanced 123 125 a) by (apply plain_balanced; eapply Forall_impl; [|exact Ha]; unfold plain_char; cbn; tauto).
  pose proof (brace_group _ [] Hb) as H1. rewrite <- app_assoc in H1. cbn [app] in H1. rewrite (brace_group a (r ++ [125]) Hb') in H1. injection H1 as H1 _.
  apply (f_equal (@length char)) in H1. rewrite app_length in H1. cbn in H1. lia.
Qed.

Lemma spaces_stretch : forall cs mu, In (cs, (true, mu)) spaces -> In cs [lit "hskip"; lit "mskip"].
Proof. intros cs mu H. repeat (destruct H as [H|H]; [first [discriminate H|injection H; intros; subst; cbn; auto]|]). destruct H. Qed.
Lemma spaces_not_hspace : forall cs k, In (cs, k) spaces -> cs <> lit "hspace".
Proof. intros cs k H. repeat (destruct H as [H|H]; [injection H; intros; subst; discriminate|]). destruct H. Qed.

Lemma spaced_ends : forall x s r, spaced s r -> ends r (x ++ s) /\ (length r <= length (x ++ s))%nat.
Proof.
  intros x s r [[-> _]|(c & _ & _ & ->)]; (split; [|lens]); [apply ends_app|]. exists (x ++ [c]). rewrite <- app_assoc. reflexivity.
Qed.

Lemma not_white : forall w c r, is_ws c = false -> ~ white (w ++ c :: r).
Proof. intros w c r H. unfold white. rewrite forallb_app. cbn [forallb]. rewrite H, andb_false_r. discriminate. Qed.

Lemma length_decide : forall h b cs mu t s, blank b -> control cs t s -> In (cs, (false, mu)) spaces -> nuc al h (b ++ t).
Proof.
  intros h b cs mu t s Hb Hc Hin. pose proof (control_length _ _ _ Hc) as Hl. pose proof (control_ends_b b _ _ _ Hc) as He.
  assert (Hcs : In cs (lit "hspace" :: map fst spaces)) by (right; exact (in_map fst _ _ Hin)).
  destruct (starts_or 123 s eq_refl) as [(w & s' & Hw & ->)|Hs].
  - destruct (braces_or s') as [(x & r & Hx & ->)|Hu]; [|eapply nuc_wrong, W_length_open; eassumption].
    assert (Hlead : lead cs (w ++ [123])) by (right; eauto).
    destruct (length_or x) as [(x1 & d & y & z & -> & Hd & Hz)|[Hn|(x1 & q & -> & Hx1)]].
    + destruct (white_or z) as [Hzw|(w' & c & r' & Hw' & Hc' & Ez)].
      * assert (Ht : trailing y) by (exists z; auto). destruct (unit_or d) as [Hu|Hu].
        -- eapply nuc_good; [intros K; eapply N_space_braced; try eassumption; intros _; exact Hu|reflexivity|lens|eapply ends_trans; [apply ends_group|exact He]].
        -- destruct mu; [eapply nuc_wrong, W_unit; eassumption|].
           eapply nuc_good; [intros K; eapply N_space_braced; try eassumption; discriminate|reflexivity|lens|eapply ends_trans; [apply ends_group|exact He]].
      * eapply nuc_wrong, W_long_length; try eassumption; [rewrite Ez; now apply not_white|discriminate].
    + eapply nuc_wrong, W_no_unit; try eassumption. left. exact Hn.
    + eapply nuc_beyond, (B_length h b cs t (w ++ [123]) x1 (q ++ 125 :: r)); try assumption; [|now apply DL_length].
      replace ((w ++ [123]) ++ x1 ++ q ++ 125 :: r) with (w ++ 123 :: (x1 ++ q) ++ 125 :: r) by (rewrite <- !app_assoc; reflexivity). exact Hc.
  - assert (Hlead : lead cs []) by (left; split; [reflexivity|eapply spaces_not_hspace; eassumption]).
    destruct (length_or s) as [(x & d & y & z & -> & Hd & Hz)|[Hn|(x & q & -> & Hx)]].
    + destruct (spaced_ends x _ _ Hz) as [He2 Hl2].
      assert (Hg : (mu = true -> dunit d = UMu) -> nuc al h (b ++ t)).
      { intros Hu. eapply nuc_good; [intros K; eapply N_space; try eassumption; discriminate|reflexivity|lens|eapply ends_trans; eassumption]. }
      destruct (unit_or d) as [Hu|Hu]; [apply Hg; intros _; exact Hu|]. destruct mu; [eapply nuc_wrong, W_unit_bare; try eassumption; discriminate|apply Hg; discriminate].
    + eapply nuc_wrong, W_no_unit_bare; try eassumption. left. exact Hn.
    + eapply nuc_beyond, (B_length h b cs t [] x q); try assumption. now apply DL_length.
Qed.

Lemma in_mu_or : forall d p m, in_mu d p m \/ ~ in_mu d p m.
Proof.
  intros d p m. assert (Ho : forall o : option dimension, (forall x, o = Some x -> dunit x = UMu) \/ exists x, o = Some x /\ dunit x <> UMu).
  { intros [x|]; [|left; discriminate]. destruct (unit_or x) as [H|H]; [left; intros y E; injection E as <-; exact H|right; eauto]. }
  destruct (unit_or d) as [Hd|Hd]; [|right; intros [H _]; contradiction]. destruct (Ho p) as [Hp|(x & -> & Hp)]; [|right; intros [_ H]; apply Hp, H; auto].
  destruct (Ho m) as [Hm|(x & -> & Hm)]; [|right; intros [_ H]; apply Hm, H; auto]. left. split; [exact Hd|]. intros x [E|E]; auto.
Qed.

Lemma glue_doubt : forall cs x, In cs [lit "hspace"; lit "hskip"; lit "mskip"] -> bad_length x \/ (exists a y, x = a ++ y /\ glue_start a /\ bad_length y) -> doubtful_length cs x.
Proof.
  intros cs x Hin [H|(a & y & -> & Ha & Hy)]; [|now apply DL_stretch]. apply DL_length; [|exact H]. destruct Hin as [<-|[<-|[<-|[]]]]; cbn; auto 8.
Qed.
Lemma glue_ends : forall s d p m r, glue_text s d p m r -> ends r s /\ (length r <= length s)%nat.
Proof. intros s d p m r H. split; [|eapply glue_text_rest, H]. apply glue_text_split in H as (v & ->). apply ends_app. Qed.

Lemma skip_decide : forall h b cs mu t s, blank b -> control cs t s -> In (cs, (true, mu)) spaces -> nuc al h (b ++ t).
Proof.
  intros h b cs mu t s Hb Hc Hin. pose proof (control_length _ _ _ Hc) as Hl. pose proof (control_ends_b b _ _ _ Hc) as He.
  assert (Hcs : In cs [lit "hspace"; lit "hskip"; lit "mskip"]) by (right; exact (spaces_stretch _ _ Hin)).
  destruct (starts_or 123 s eq_refl) as [(w & s' & Hw & ->)|Hs].
  - destruct (braces_or s') as [(x & r & Hx & ->)|Hu]; [|eapply nuc_wrong, W_length_open; eassumption].
    destruct (glue_or x) as [(d & p & m & z & Hg)|[Hn|[Hn|(x1 & q & -> & Hx1)]]].
    + destruct (white_or z) as [Hzw|(w' & c & r' & Hw' & Hc' & Ez)]; [|eapply nuc_wrong, W_long_glue; try eassumption; rewrite Ez; now apply not_white].
      assert (Hgood : (mu = true -> in_mu d p m) -> nuc al h (b ++ t)).
      { intros Hmu. eapply nuc_good; [intros K; eapply N_glue_braced; eassumption|reflexivity|lens|eapply ends_trans; [apply ends_group|exact He]]. }
      destruct (in_mu_or d p m) as [Hu|Hu]; [apply Hgood; intros _; exact Hu|]. destruct mu; [eapply nuc_wrong, W_glue_unit; eassumption|apply Hgood; discriminate].
    + eapply nuc_wrong, W_no_unit; try eassumption. left. exact Hn.
    + eapply nuc_wrong, W_no_unit; try eassumption. right. split; [reflexivity|exact Hn].
    + eapply nuc_beyond, (B_length h b cs t (w ++ [123]) x1 (q ++ 125 :: r)); [assumption| |right; eauto|now apply glue_doubt].
      replace ((w ++ [123]) ++ x1 ++ q ++ 125 :: r) with (w ++ 123 :: (x1 ++ q) ++ 125 :: r) by (rewrite <- !app_assoc; reflexivity). exact Hc.
  - assert (Hlead : lead cs []) by (left; split; [reflexivity|eapply spaces_not_hspace; eassumption]).
    destruct (glue_or s) as [(d & p & m & z & Hg)|[Hn|[Hn|(x1 & q & -> & Hx1)]]].
    + destruct (glue_ends _ _ _ _ _ Hg) as [He2 Hl2].
      assert (Hgood : (mu = true -> in_mu d p m) -> nuc al h (b ++ t)).
      { intros Hmu. eapply nuc_good; [intros K; eapply N_glue; eassumption|reflexivity|lens|eapply ends_trans; eassumption]. }
      destruct (in_mu_or d p m) as [Hu|Hu]; [apply Hgood; intros _; exact Hu|]. destruct mu; [eapply nuc_wrong, W_glue_unit_bare; eassumption|apply Hgood; discriminate].
    + eapply nuc_wrong, W_no_unit_bare; try eassumption. left. exact Hn.
    + eapply nuc_wrong, W_no_unit_bare; try eassumption. right. split; [reflexivity|exact Hn].
    + eapply nuc_beyond, (B_length h b cs t [] x1 q); try assumption. now apply glue_doubt.
Qed.

Lemma space_decide : forall h b cs g mu t s, blank b -> control cs t s -> In (cs, (g, mu)) spaces -> nuc al h (b ++ t).
Proof. intros h b cs [] mu t s Hb Hc Hin; [eapply skip_decide|eapply length_decide]; eassumption. Qed.

Lemma hspace_decide : forall h b t s, blank b -> control (lit "hspace") t s -> nuc al h (b ++ t).
Proof.
  intros h b t s Hb Hc. pose proof (control_length _ _ _ Hc) as Hl. pose proof (control_ends_b b _ _ _ Hc) as He.
  destruct (group_or s) as [(w & x & r & Hw & Hx & ->)|[e Hg]]; [|eapply nuc_wrong, W_hspace; eassumption].
  destruct (glue_or x) as [(d & p & m & z & Hg)|[Hn|[Hn|(x1 & q & -> & Hx1)]]].
  - destruct (white_or z) as [Hzw|(w' & c & r' & Hw' & Hc' & Ez)].
    + eapply nuc_good; [intros K; eapply N_hspace_glue; eassumption|reflexivity|lens|eapply ends_trans; [apply ends_group|exact He]].
    + eapply nuc_beyond, (B_length h b (lit "hspace") t (w ++ [123]) (x ++ [125]) r); [assumption| |right; eauto|].
      * replace ((w ++ [123]) ++ (x ++ [125]) ++ r) with (w ++ 123 :: x ++ 125 :: r) by (rewrite <- !app_assoc; reflexivity). exact Hc.
      * eapply DL_more; [exact Hg|exact Hx|]. rewrite Ez. now apply not_white.
  - eapply nuc_wrong, W_no_unit_hspace; try eassumption. left. exact Hn.
  - eapply nuc_wrong, W_no_unit_hspace; try eassumption. right. exact Hn.
  - eapply nuc_beyond, (B_length h b (lit "hspace") t (w ++ [123]) x1 (q ++ 125 :: r)); [assumption| |right; eauto|apply glue_doubt; [left; reflexivity|exact Hx1]].
    replace ((w ++ [123]) ++ x1 ++ q ++ 125 :: r) with (w ++ 123 :: (x1 ++ q) ++ 125 :: r) by (rewrite <- !app_assoc; reflexivity). exact Hc.
Qed.

Lemma figures_decide : forall h b t x z y, blank b -> control (lit "char") t (x ++ y) -> figures x z -> not_next (next_figure x) y -> nuc al h (b ++ t).
Proof.
  intros h b t x z y Hb Hc Hf Hn. pose proof (control_length _ _ _ Hc) as Hl. pose proof (control_ends_b b _ _ _ Hc) as He.
  pose proof (figures_nonneg _ _ Hf) as H0. destruct (Z.leb_spec (2 ^ 64) z) as [Hbig|Hsm]; [eapply nuc_beyond, (B_code h b t x y); try assumption; eapply DN_large; eassumption|].
  destruct (spaced_or y) as [[r Hz]|(c' & r & Hws & Hwide & ->)].
  2:{ eapply nuc_beyond, (B_code h b t (x ++ [c']) r); [assumption| |eapply DN_wide; eassumption]. rewrite <- app_assoc. exact Hc. }
  pose proof (CT_figures x z y r Hf Hn Hz) as Hct.
  destruct (Z.leb_spec z 255) as [Hle|Hgt]; [|eapply nuc_wrong, W_char_code; try eassumption; lia].
  destruct (spaced_ends x _ _ Hz) as [He2 Hl2].
  eapply nuc_good; [intros K; eapply (N_char_code h b t (x ++ y) (Z.to_N z)); try eassumption; [rewrite Z2N.id by lia; exact Hct|lia]|reflexivity|lens|eapply ends_trans; eassumption].
Qed.

Lemma code_decide : forall h b t s, blank b -> control (lit "char") t s -> nuc al h (b ++ t).
Proof.
  intros h b t s Hb Hc. pose proof (control_length _ _ _ Hc) as Hl. pose proof (control_ends_b b _ _ _ Hc) as He.
  destruct s as [|c s]; [eapply nuc_wrong, W_char_none; try eassumption; exact I|].
  destruct (is_digit c) eqn:Ed.
  { destruct (span_while is_digit (c :: s)) as [ds y] eqn:E. apply span_while_spec in E as (E & Hd & Hn).
    assert (Hds : digits ds) by (apply Forall_forall; intros c' Hx; apply digit_is; exact (proj1 (forallb_forall _ _) Hd c' Hx)).
    destruct ds as [|c' ds]; [cbn [app] in E; subst y; cbn in Hn; congruence|]. rewrite E in Hc.
    eapply (figures_decide h b t (c' :: ds) _ y Hb Hc); [apply F_decimal; [exact Hds|discriminate]|]. inversion Hds; subst.
    destruct y; [exact I|]. cbn [not_next]. rewrite next_figure_digit by assumption. cbn in Hn. intros X. apply digit_is in X. congruence. }
  assert (Hnd : ~ digit c) by (intros X; apply digit_is in X; congruence).
  destruct (N.eq_dec c 39) as [->|N1].
  { destruct (span_while is_digit s) as [ds y] eqn:E. apply span_while_spec in E as (-> & Hd & Hn).
    assert (Hds : digits ds) by (apply Forall_forall; intros c' Hx; apply digit_is; exact (proj1 (forallb_forall _ _) Hd c' Hx)).
    assert (Ho : Forall octal_digit ds \/ exists a c' z, ds = a ++ c' :: z /\ Forall octal_digit a /\ (c' = 56 \/ c' = 57)).
    { clear -Hds. induction Hds as [|c ds Hc Hd IH]; [left; constructor|]. destruct (N.le_gt_cases c 55).
      - destruct IH as [IH|(a & c' & z & -> & Ha & Hc')]; [left; constructor; [unfold octal_digit, digit in *; lia|exact IH]|].
        right. exists (c :: a), c', z. split; [reflexivity|]. split; [constructor; [unfold octal_digit, digit in *; lia|exact Ha]|exact Hc'].
      - right. exists [], c, ds. split; [reflexivity|]. split; [constructor|]. unfold digit in Hc. lia. }
    destruct Ho as [Ho|(a & c' & z & -> & Ha & Hc')].
    - apply (figures_decide h b t (39 :: ds) (octal_of ds) y Hb Hc); [apply F_octal, Ho|]. destruct y; [exact I|]. cbn in Hn |- *. intros X. apply digit_is in X. congruence.
    - eapply nuc_beyond, (B_code h b t (39 :: a ++ [c']) (z ++ y)); [assumption| |apply DN_not_octal; assumption].
      replace ((39 :: a ++ [c']) ++ z ++ y) with (39 :: (a ++ c' :: z) ++ y) by (cbn [app]; rewrite <- !app_assoc; reflexivity). exact Hc. }
  destruct (N.eq_dec c 34) as [->|N2].
  { destruct (span_while is_hex_upper s) as [ds y] eqn:E. apply span_while_spec in E as (-> & Hd & Hn).
    assert (Hds : Forall hexadecimal_digit ds) by (apply Forall_forall; intros c' Hx; apply hexadecimal_is; exact (proj1 (forallb_forall _ _) Hd c' Hx)).
    apply (figures_decide h b t (34 :: ds) (hexadecimal_of ds) y Hb Hc); [apply F_hexadecimal, Hds|]. destruct y; [exact I|]. cbn in Hn |- *. intros X. apply hexadecimal_is in X. congruence. }
  destruct (N.eq_dec c 96) as [->|N3].
  { destruct s as [|c s]; [eapply nuc_wrong, W_char_mark; try eassumption; left; reflexivity|].
    destruct (N.le_gt_cases 128 c) as [Hw|Hw]; [eapply nuc_wrong, (W_char_wide _ h b t [96] c s); try assumption; left; reflexivity|].
    destruct (N.eq_dec c 92) as [->|N4].
    - destruct s as [|c s]; [eapply nuc_wrong, W_char_mark; try eassumption; right; reflexivity|].
      destruct (N.le_gt_cases 128 c) as [Hw'|Hw']; [eapply nuc_wrong, (W_char_wide _ h b t [96; 92] c s); try assumption; right; reflexivity|].
      eapply nuc_good; [intros K; eapply (N_char_code h b t _ c); [exact Hb|exact Hc|apply CT_escaped; exact Hw'|lia]|reflexivity|lens|].
      eapply ends_trans; [|exact He]. exists [96; 92; c]. reflexivity.
    - eapply nuc_good; [intros K; eapply (N_char_code h b t _ c); [exact Hb|exact Hc|apply CT_character; assumption|lia]|reflexivity|lens|].
      eapply ends_trans; [|exact He]. exists [96; c]. reflexivity. }
  destruct (N.le_gt_cases 128 c) as [Hw|Hw].
  - eapply nuc_beyond, (B_code h b t [c] s); try assumption. constructor; [exact Hw|]. destruct Hc as (w0 & _ & _ & Hw0 & _); cbn in Hw0; now destruct (is_ws c).
  - eapply nuc_wrong, W_char_none; try eassumption. cbn [not_next]. unfold number_sign. intros [X|X]; [contradiction|lia].
Qed.

(** [\Space] *)
Lemma length_in_braces : forall m x, balanced 123 125 x -> (exists x1 y d, x = x1 ++ y /\ dimension_text x1 d /\ (m = true -> y = []) /\ exists z, spaced y z) \/
  no_length x \/ exists x1 x2, x = x1 ++ x2 /\ doubtful_part m x1.
Proof.
  intros m x Hx. pose proof (first_or x) as Hf. destruct (first_length x) as [[x1 y]|]; [|auto]. destruct Hf as [-> Hsl].
  destruct (dimension_or x1) as [[d Hd]|Hd]; [|right; right; exists x1, y; split; [reflexivity|apply DP_length; now apply BL_number]].
  destruct (spaced_or y) as [[z Hz]|(c & z & Hws & Hwide & ->)].
  2:{ right. right. exists (x1 ++ [c]), z. split; [rewrite <- app_assoc; reflexivity|]. apply DP_length; eapply BL_wide; eassumption. }
  destruct m; [|left; exists x1, y, d; repeat split; [exact Hd|discriminate|exists z; exact Hz]]. destruct y as [|c y].
  - left. exists x1, [], d. repeat split; [exact Hd|exists z; exact Hz].
  - right. right. exists (x1 ++ [c]), y. split; [rewrite <- app_assoc; reflexivity|]. eapply DP_more; [eassumption|]. intros ->.
    apply not_closed in Hx; [exact Hx|exact (dimension_text_chars _ _ Hd)].
Qed.

Lemma strut_or : forall j s, (exists r, lengths j s r) \/ (exists e, strut_fault j s e) \/ exists k w x r, (k < j)%nat /\ lengths k s (w ++ 123 :: x ++ r) /\ white w /\ doubtful_part true x.
Proof.
  induction j as [|m IH]; intros s; [left; exists s; constructor|].
  destruct (group_or s) as [(w & x & r & Hw & Hx & ->)|[e Hg]]; [|right; left; exists (for_length e); now apply SF_group].
  destruct (length_in_braces true x Hx) as [(x1 & y & d & -> & Hd & Hy & _)|[Hn|(x1 & x2 & -> & Hp)]].
  - rewrite (Hy eq_refl), app_nil_r in *. destruct (IH r) as [[r' H]|[[e H]|(k & w' & x' & r' & Hk & H1 & H2 & H3)]].
    + left. exists r'. eapply LG_one; eassumption.
    + right. left. exists e. eapply SF_next; eassumption.
    + right. right. exists (S k), w', x', r'. split; [lia|]. split; [eapply LG_one; eassumption|auto].
  - right. left. eexists. apply SF_unit; assumption.
  - right. right. exists O, w, x1, (x2 ++ 125 :: r). split; [lia|]. split; [|auto]. rewrite <- app_assoc. constructor.
Qed.

Lemma strut_decide : forall h b t s, blank b -> control (lit "Space") t s -> nuc al h (b ++ t).
Proof.
  intros h b t s Hb Hc. pose proof (control_length _ _ _ Hc) as Hl. pose proof (control_ends_b b _ _ _ Hc) as He.
  destruct (strut_or 3 s) as [[r H]|[[e H]|(k & w & x & r & Hk & H1 & H2 & H3)]]; [|eapply nuc_wrong, W_strut; eassumption|eapply nuc_beyond, B_strut; eassumption].
  inversion H as [|n1 w1 x1 d1 s1 r1 Hw1 Hd1 H']; subst. inversion H' as [|n2 w2 x2 d2 s2 r2 Hw2 Hd2 H'']; subst. inversion H'' as [|n3 w3 x3 d3 s3 r3 Hw3 Hd3 H3]; subst. inversion H3; subst.
  eapply nuc_good; [intros K; eapply N_strut; eassumption|reflexivity|lens|].
  eapply ends_trans; [|exact He]. eapply ends_trans; [apply ends_group|]. eapply ends_trans; [apply ends_group|]. apply ends_group.
Qed.

(** [\sideset] *)
Lemma unbraced_or : forall b c r, ~ starts 123 (b ++ c :: r) -> c <> 123 \/ ~ white b.
Proof. intros b c r H. destruct (N.eq_dec c 123) as [->|Hc]; [right|left; exact Hc]. intros Hw. apply H. exists b, r. auto. Qed.

Lemma one_or : forall s, (exists r, one_argument s r /\ ends r s /\ (length r < length s)%nat) \/ exists e, no_argument s e.
Proof.
  intros s. destruct (argument_or s) as [(w & x & r & Hw & Hx & ->)|[H|[(b & c & r & Hb & H1 & H2 & H3 & Hn & ->)|(b & cs & t & r & Hb & Hc & ->)]]]; [| right; exact H | |].
  - left. exists r. split; [now apply OA_group|]. split; [apply ends_group|lens].
  - left. exists r. split; [|split; [eapply ends_trans; [apply ends_cons|apply ends_app]|lens]]. apply OA_char; try assumption. eapply unbraced_or, Hn.
  - left. exists r. split; [eapply OA_control; eassumption|]. split; [eapply control_ends_b, Hc|]. pose proof (control_length _ _ _ Hc). lens.
Qed.

Lemma operator_or : forall s, operator_first s \/ ~ operator_first s.
Proof.
  intros s. pose proof (token_back s) as Hk.
  assert (Hno : (forall cs r, lex_token s <> (Ok (TCs cs), r)) -> ~ operator_first s).
  { intros H (b & cs & t & r & c & -> & Hb & Hc & _). exact (H cs r (control_token b cs t r Hb Hc)). }
  destruct (lex_token s) as [[[cs|ctx]|e'|p'|] r0] eqn:Et; try contradiction; try (right; apply Hno; intros; congruence).
  destruct Hk as (b & t & Hb & -> & Hc).
  assert (Hd : (exists c, In (cs, c) commands /\ c_limits c <> no_limits /\ c_args c = []) \/ ~ exists c, In (cs, c) commands /\ c_limits c <> no_limits /\ c_args c = []).
  { clear. induction commands as [|[cs' c'] l IH]; [right; intros (c & [] & _)|]. destruct IH as [(c & H1 & H2)|IH]; [left; exists c; split; [right; exact H1|exact H2]|].
    destruct (str_eqb cs cs') eqn:E.
    - apply str_eqb_eq in E. subst cs'. destruct (limits_or (c_limits c')) as [El|El].
      + right. intros (c & [H1|H1] & H2 & H3); [injection H1 as <-; contradiction|]. apply IH. exists c. auto.
      + destruct (c_args c') as [|k ks] eqn:Ea; [left; exists c'; split; [left; reflexivity|auto]|].
        right. intros (c & [H1|H1] & H2 & H3); [injection H1 as <-; congruence|]. apply IH. exists c. auto.
    - right. intros (c & [H1|H1] & H2 & H3); [injection H1 as <- <-; rewrite str_eqb_refl in E; discriminate|]. apply IH. exists c. auto. }
  destruct Hd as [(c & H1 & H2 & H3)|Hn]; [left; exists b, cs, t, r0, c; auto 8|].
  right. intros (b' & cs' & t' & r' & c & E & Hb' & Hc' & H). pose proof (control_token b' cs' t' r' Hb' Hc') as Ht. rewrite <- E, Et in Ht. injection Ht as <- <-. apply Hn. exists c. exact H.
Qed.

Lemma sideset_decide : forall h b t s, blank b -> control (lit "sideset") t s -> (length (b ++ t) < S n)%nat -> nuc al h (b ++ t).
Proof.
  intros h b t s Hb Hc Hlen. pose proof (control_length _ _ _ Hc) as Hl. pose proof (control_ends_b b _ _ _ Hc) as He.
  destruct h; [eapply nuc_beyond, B_operator; [eassumption..|do 2 right; left; reflexivity]|].
  destruct (one_or s) as [(s1 & H1 & He1 & Hl1)|[e H]]; [|eapply nuc_wrong, W_sides; [eassumption..|apply SD_first, H]].
  destruct (one_or s1) as [(s2 & H2 & He2 & Hl2)|[e H]]; [|eapply nuc_wrong, W_sides; [eassumption..|eapply SD_second; eassumption]].
  assert (Hs2 : (length s2 < n)%nat) by (rewrite app_length in Hlen; lia). pose proof (ends_trans _ _ _ He2 (ends_trans _ _ _ He1 He)) as He3.
  destruct (operator_or s2) as [(b' & cs' & t' & r' & c & -> & Hb' & Hc' & Hin & Hlim & Ha)|Hno].
  - pose proof (control_length _ _ _ Hc') as Hl'. pose proof (control_ends_b b' _ _ _ Hc') as He'.
    eapply (nuc_good al false (b ++ t) _ _ r'); [|discriminate|rewrite !app_length in *; lia|eapply ends_trans; [exact He'|exact He3]].
    intros K. eapply N_sideset; try eassumption. eapply (N_command true b' cs' t' r' c []); try eassumption. rewrite Ha. constructor.
  - destruct (arg_or s2 Hs2) as [(r & H3 & H4 & H5)|[[e H]|H]]; [|eapply nuc_wrong, W_sideset; eassumption|eapply nuc_beyond, B_sideset; eassumption].
    left. exists no_limits, r. split; [reflexivity|]. split; [rewrite app_length; lia|]. split; [eapply ends_trans; eassumption|].
    eapply outcome_part; [apply ends_part, He3|]. revert H5. apply outcome_imp. intros K es H. eapply N_sideset; eassumption.
Qed.

(** [\genfrac] *)
Lemma frac_delimiter_or : forall s, (exists o r, frac_delimiter s o r) \/ exists e, no_frac_delimiter s e.
Proof.
  intros s. destruct (starts_or 123 s eq_refl) as [(w & s' & Hw & ->)|Hs].
  - destruct (braces_or s') as [(g & r & Hg & ->)|Hu]; [|right; eexists; apply NF_argument, NA_open; assumption].
    destruct g as [|x g]; [left; exists None, r; now apply FD_none|right; eexists; apply NF_braces; [assumption..|discriminate]].
  - destruct (delimiter_or s) as [(c & ty & r & H)|[e H]]; [left; exists (Some c), r; eapply FD_some; eassumption|right].
    pose proof H as H'. inversion H as [s0 H0|b Hb|s0 H1 H2 H3]; subst.
    + eexists. apply NF_argument, NA_end, H0.
    + eexists. apply NF_argument, NA_backslash, Hb.
    + eexists. apply NF_other; assumption.
Qed.

Lemma frac_style_or : forall s, (exists sty r, frac_style s sty r) \/ exists e, no_frac_style s e.
Proof.
  assert (Hin : forall x, (exists sty, In (x, sty) frac_styles) \/ ~ In x (map fst frac_styles)).
  { intros x. destruct (in_or x (map fst frac_styles)) as [H|H]; [left|right; exact H]. apply in_map_iff in H as ((x' & sty) & <- & H). exists sty. exact H. }
  intros s. destruct (argument_or s) as [(w & x & r & Hw & Hx & ->)|[[e H]|[(b & c & r & Hb & H1 & H2 & H3 & Hn & ->)|(b & cs & t & r & Hb & Hc & ->)]]].
  - destruct (Hin x) as [[sty H]|H]; [left; exists sty, r; now apply FS_group|right; eexists; now apply NS_braces].
  - right. eexists. eapply NS_argument, H.
  - destruct (Hin [c]) as [[sty H]|H]; [left; exists sty, r; now apply FS_digit|right; eexists; apply NS_char; try assumption]. eapply unbraced_or, Hn.
  - right. eexists. eapply NS_command; eassumption.
Qed.

Lemma frac_bar_or : forall s, (exists w x bar r, s = w ++ 123 :: x ++ 125 :: r /\ white w /\ frac_bar x bar) \/ (exists e, no_frac_bar s e) \/
  exists w x r, s = w ++ 123 :: x ++ r /\ white w /\ doubtful_part false x.
Proof.
  intros s. destruct (group_or s) as [(w & x & r & Hw & Hx & ->)|[e Hg]]; [|right; left; exists (for_length e); now apply NR_group].
  destruct x as [|c0 x0]; [left; exists w, [], None, r; split; [reflexivity|split; [exact Hw|left; auto]]|]. remember (c0 :: x0) as x eqn:Ex. assert (Hne : x <> []) by (rewrite Ex; discriminate). clear c0 x0 Ex.
  destruct (length_in_braces false x Hx) as [(x1 & y & d & -> & Hd & _ & z & Hz)|[Hn|(x1 & x2 & -> & Hp)]].
  - destruct z as [|c z].
    + left. exists w, (x1 ++ y), (Some d), r. split; [reflexivity|]. split; [exact Hw|]. right. exists x1, y, d. auto.
    + right. left. eexists. eapply NR_more; try eassumption. discriminate.
  - right. left. eexists. apply NR_unit; assumption.
  - right. right. exists w, x1, (x2 ++ 125 :: r). split; [rewrite <- app_assoc; reflexivity|auto].
Qed.

Lemma frac_delimiter_shorter : forall s o r, frac_delimiter s o r -> ends r s /\ (length r < length s)%nat.
Proof.
  intros s o r [w r0 Hw|s0 c ty r0 Hn Hd]; [|split; [eapply delimiter_ends, Hd|apply (delimiter_read _ _ _ _ Hd)]]. split; [exists (w ++ [123; 125]); rewrite <- app_assoc; reflexivity|lens].
Qed.
Lemma frac_style_shorter : forall s o r, frac_style s o r -> ends r s /\ (length r < length s)%nat.
Proof. intros s sty r [w y sty0 r0 Hw Hy|b c sty0 r0 Hb Hc]; (split; [|lens]); [apply ends_group|eapply ends_trans; [apply ends_cons|apply ends_app]]. Qed.

Lemma genfrac_wrap : forall o c bar sty, exists p q, forall a b, genfrac_meaning o c bar sty a b = p ++ (a ++ b) ++ q.
Proof.
  intros o c bar sty. unfold genfrac_meaning.
  destruct o, c, sty; (eexists (_ :: _ :: [_]), [EvEnd]; intros; reflexivity) || (eexists (_ :: [_]), [EvEnd]; intros; reflexivity) || (eexists [_], []; intros; rewrite app_nil_r; reflexivity).
Qed.

Lemma frac_decide : forall h b t s, blank b -> control (lit "genfrac") t s -> (length (b ++ t) < S n)%nat -> nuc al h (b ++ t).
Proof.
  intros h b t s Hb Hc Hlen. pose proof (control_length _ _ _ Hc) as Hl. pose proof (control_ends_b b _ _ _ Hc) as He.
  destruct (frac_delimiter_or s) as [(o & s2 & Ho)|[e H]]; [|eapply nuc_wrong, W_genfrac; [eassumption..|apply GF_open, H]].
  destruct (frac_delimiter_or s2) as [(c & s2' & Hcl)|[e H]]; [|eapply nuc_wrong, W_genfrac; [eassumption..|eapply GF_close; eassumption]].
  destruct (frac_bar_or s2') as [(w & x & bar & s4 & -> & Hw & Hbar)|[[e H]|(w & x & r & -> & Hw & Hx)]];
    [|eapply nuc_wrong, W_genfrac; [eassumption..|eapply GF_bar; eassumption]|eapply nuc_beyond, B_frac_bar; eassumption].
  destruct (frac_style_or s4) as [(sty & s3 & Hsty)|[e H]]; [|eapply nuc_wrong, W_genfrac; [eassumption..|eapply GF_style; eassumption]].
  destruct (frac_delimiter_shorter _ _ _ Ho) as [E1 L1]. destruct (frac_delimiter_shorter _ _ _ Hcl) as [E2 L2]. destruct (frac_style_shorter _ _ _ Hsty) as [E3 L3].
  assert (L2' : (length s4 < length s2)%nat) by (repeat (rewrite app_length in L2 || cbn [length] in L2); lia).
  assert (Hs3 : (length s3 < n)%nat) by (rewrite app_length in Hlen; lia).
  assert (E4 : ends s3 (b ++ t)).
  { eapply ends_trans; [exact E3|]. eapply ends_trans; [apply (ends_group w 123 x 125 s4)|]. eapply ends_trans; [exact E2|]. eapply ends_trans; eassumption. }
  assert (Hbad : forall e, @wrong_argument anything al true [Whole; Whole] s3 e -> nuc al h (b ++ t)) by (intros e H; eapply nuc_wrong, W_genfrac_parts; eassumption).
  assert (Hbey : beyond_argument true [Whole; Whole] s3 -> nuc al h (b ++ t)) by (intros H; eapply nuc_beyond, B_frac_parts; eassumption).
  destruct (arg_or s3 Hs3) as [(r & Hr)|[[e H]|H]]; [|eapply Hbad, WA_here, H|apply Hbey, BA_here, H].
  pose proof (reads_any _ _ _ _ Hr) as [es0 Hany]. destruct Hr as (H1 & H2 & H3). assert (Hrn : (length r < n)%nat) by lia.
  destruct (arg_or r Hrn) as [(r' & H1' & H2' & H3')|[[e H]|H]];
    [|eapply Hbad, WA_later; [exact Hany|apply WA_here, H]|apply Hbey; eapply BA_later; [exact Hany|apply BA_here, H]].
  left. exists no_limits, r'. split; [reflexivity|]. split; [rewrite app_length; lia|]. split; [eapply ends_trans; [exact H2'|]; eapply ends_trans; eassumption|].
  apply (outcome_part _ s3) in H3'; [|apply ends_part, H2]. pose proof (outcome_both s3 _ _ (mono_nucleus _ _ _ _) (mono_nucleus _ _ _ _) H3 H3') as H4.
  destruct (genfrac_wrap o c bar sty) as (p & q & Hpq). apply (outcome_wrap _ p _ q) in H4. eapply outcome_part; [apply ends_part, E4|]. revert H4. apply outcome_imp.
  intros K es (z & (a1 & a2 & Ha1 & Ha2 & ->) & ->). rewrite <- Hpq. eapply N_genfrac; eassumption.
Qed.

Lemma control_decide : forall h b cs t s, blank b -> control cs t s -> (length (b ++ t) < S n)%nat -> nuc al h (b ++ t).
Proof.
  intros h b cs t s Hb Hc Hlen. pose proof (control_length _ _ _ Hc) as Hl. pose proof (control_ends_b b _ _ _ Hc) as He.
  assert (Hr : (length s < length (b ++ t))%nat) by (rewrite app_length; lia).
  destruct (classify cs) as [H|e H|c H|H|H|H|H|H|H|H|H|H|H].
  - eapply nuc_wrong, W_unknown; eassumption.
  - eapply nuc_good; [intros K; eapply N_symbol; eassumption|reflexivity|exact Hr|exact He].
  - eapply command_decide; eassumption.
  - eapply root_decide; eassumption.
  - eapply text_decide; eassumption.
  - eapply between_decide; eassumption.
  - eapply nuc_wrong, W_unbalanced; eassumption.
  - eapply delimiter_decide; eassumption.
  - cbn [In] in H. destruct H as [<-|[<-|[<-|[<-|[<-|[<-|[<-|[<-|[<-|[]]]]]]]]]]; [eapply begin_decide; eassumption|eapply textcolor_decide; eassumption| |
      eapply box_decide; eassumption|eapply frame_decide; eassumption|eapply substack_decide; eassumption|eapply strut_decide; eassumption|eapply frac_decide; eassumption|eapply sideset_decide; eassumption].
    eapply nuc_good; [intros K; eapply N_dots; eassumption|reflexivity|exact Hr|exact He].
  - eapply class_decide; eassumption.
  - apply in_map_iff in H as ((cs' & [g mu]) & <- & H). eapply space_decide; eassumption.
  - destruct H as [<-|[<-|[]]]; [eapply hspace_decide; eassumption|eapply code_decide; eassumption].
  - eapply nuc_beyond, B_command; eassumption.
Qed.

Lemma special_cases : forall c, special c = true -> is_ws c = false -> c <> 37 -> c <> 92 ->
  c = 95 \/ c = 94 \/ c = 36 \/ c = 35 \/ c = 38 \/ c = 123 \/ c = 125 \/ digit c.
Proof.
  intros c H H1 H2 H3. unfold special in H. rewrite H1, orb_false_r in H. apply orb_true_iff in H as [H|H].
  - apply existsb_exists in H as (x & Hx & E). apply N.eqb_eq in E. subst x. cbn [In] in Hx. intuition congruence.
  - unfold digit_char in H. apply andb_prop in H as [A1 A2]. apply N.leb_le in A1, A2. unfold digit. intuition lia.
Qed.

Lemma char_decide : forall h b c r, blank b -> is_ws c = false -> c <> 37 -> c <> 92 -> (length (b ++ c :: r) < S n)%nat -> nuc al h (b ++ c :: r).
Proof.
  intros h b c r Hb H1 H2 H3 Hlen. assert (Hr : (length r < length (b ++ c :: r))%nat) by lens.
  assert (He : ends r (b ++ c :: r)) by (eapply ends_trans; [apply ends_cons|apply ends_app]).
  destruct (special c) eqn:Es; [|eapply nuc_good; [intros K; apply N_char; assumption|reflexivity|exact Hr|exact He]].
  destruct (special_cases c Es H1 H2 H3) as [->|[->|[->|[->|[->|[->|[->|Hd]]]]]]].
  - destruct h; [eapply nuc_wrong, W_script; [exact Hb|right; reflexivity]|right; right; right; split; [reflexivity|apply AP_char; auto]].
  - destruct h; [eapply nuc_wrong, W_script; [exact Hb|left; reflexivity]|right; right; right; split; [reflexivity|apply AP_char; auto]].
  - eapply nuc_wrong, W_shift, Hb.
  - eapply nuc_wrong, W_hash, Hb.
  - destruct h; [eapply nuc_wrong, W_mark; auto|right; right; right; split; [reflexivity|apply AP_char; auto]].
  - destruct (braces_or r) as [(g & r' & Hg & ->)|Hu]; [|eapply nuc_wrong, W_open; assumption]. left. exists no_limits, r'. split; [reflexivity|]. split; [lens|].
    split; [apply ends_group|]. assert (Hgl : (length g < n)%nat) by lens. pose proof (Hform None g Hgl) as H4.
    apply (outcome_part _ (b ++ 123 :: g ++ 125 :: r')) in H4; [|apply part_group; unfold letter; lia]. apply (outcome_wrap _ [EvBegin GNormal] _ [EvEnd]) in H4. revert H4.
    apply outcome_imp. intros K es (x & Hx & ->). cbn [app]. apply N_group; assumption.
  - eapply nuc_wrong, W_close, Hb.
  - destruct h; [eapply nuc_good; [intros K; apply N_digit; assumption|reflexivity|exact Hr|exact He]|].
    destruct (number_total c r Hd) as (m & r' & Hm & Ha & E & Hne). rewrite E in *.
    eapply nuc_good; [intros K; apply N_number; assumption|discriminate|destruct m; [contradiction|]; lens|eapply ends_trans; [apply ends_app|apply ends_app]].
Qed.

Lemma nucleus_decide : forall h s, (length s < S n)%nat -> nuc al h s.
Proof.
  intros h s Hlen. pose proof (token_back s) as Hk. destruct (lex_token s) as [[[cs|ctx]|e'|p'|] r0] eqn:Et; try contradiction.
  - destruct Hk as (b & t & Hb & -> & Hc). eapply control_decide; eassumption.
  - destruct Hk as (b & c & Hb & -> & -> & H1 & H2 & H3). apply char_decide; assumption.
  - destruct e'; try (destruct Hk as [? _]; discriminate).
    + destruct Hk as (_ & b & Hb & ->). eapply nuc_wrong, W_backslash, Hb.
    + destruct h; [eapply nuc_wrong, W_end, Hk|right; right; right; split; [reflexivity|apply AP_end, Hk]].
Qed.

(** ** Scripts *)

Lemma script_or : forall r, no_script r \/ exists c r', r = c :: r' /\ script_mark c.
Proof.
  intros [|c r]; [left; exact I|]. destruct (N.eq_dec c 94) as [->|H1]; [right; exists 94, r; split; [reflexivity|left; reflexivity]|].
  destruct (N.eq_dec c 95) as [->|H2]; [right; exists 95, r; split; [reflexivity|right; reflexivity]|]. left. cbn. intuition.
Qed.

Definition scripted_as (p : script_pos) (D : reading) (s r : str) : reading := fun K es => exists es0, D K es0 /\ @scripts K p es0 s es r.

Lemma mark_decide : forall p (D : reading) s0 w c s, mono D -> outcome s0 D -> ends (w ++ c :: s) s0 -> white w -> script_mark c -> (length s < n)%nat ->
  (exists r, (length r < length (w ++ c :: s))%nat /\ ends r (w ++ c :: s) /\ outcome s0 (scripted_as p D (w ++ c :: s) r)) \/
  (exists e, @wrong_scripts anything al (w ++ c :: s) e) \/ beyond_scripts (w ++ c :: s).
Proof.
  intros p D s0 w c s HD H0 He Hw Hc Hs. assert (He1 : ends s s0) by (eapply ends_trans; [|exact He]; eapply ends_trans; [apply ends_cons|apply ends_app]).
  destruct (arg_or s Hs) as [(r & Hr)|[[e H]|H]]; [|right; left; exists e; apply WS_first; assumption|right; right; apply BS_first; assumption].
  pose proof (reads_any _ _ _ _ Hr) as [a0 Hany]. destruct Hr as (H1 & H2 & H3).
  apply (outcome_part _ s0) in H3; [|apply ends_part, He1].
  destruct (script_or r) as [Hn|(c' & r' & -> & Hc')].
  - left. exists r. split; [lens|]. split; [eapply ends_trans; [exact H2|]; eapply ends_trans; [apply ends_cons|apply ends_app]|].
    destruct Hc as [->| ->].
    + pose proof (outcome_both _ _ _ HD (mono_nucleus _ _ _ _) H0 H3) as H4. apply (outcome_wrap _ [EvScript STSup p] _ []) in H4. revert H4. apply outcome_imp.
      intros K es (x & (y & z & Hy & Hz & ->) & ->). rewrite app_nil_r. exists y. split; [exact Hy|]. cbn [app]. apply S_sup; assumption.
    + pose proof (outcome_both _ _ _ HD (mono_nucleus _ _ _ _) H0 H3) as H4. apply (outcome_wrap _ [EvScript STSub p] _ []) in H4. revert H4. apply outcome_imp.
      intros K es (x & (y & z & Hy & Hz & ->) & ->). rewrite app_nil_r. exists y. split; [exact Hy|]. cbn [app]. apply S_sub; assumption.
  - destruct (N.eq_dec c' c) as [->|Hne]; [right; left; eexists; eapply WS_double; eassumption|].
    assert (Hr' : (length r' < n)%nat) by (cbn [length] in *; lia). assert (He2 : ends r' s0) by (eapply ends_trans; [apply ends_cons|]; eapply ends_trans; [exact H2|exact He1]).
    destruct (arg_or r' Hr') as [(r & Hr)|[[e H]|H]]; [|right; left; exists e; eapply WS_second; eassumption|right; right; eapply BS_second; eassumption].
    pose proof (reads_any _ _ _ _ Hr) as [b0 Hany']. destruct Hr as (H1' & H2' & H3').
    apply (outcome_part _ s0) in H3'; [|apply ends_part, He2].
    destruct (script_or r) as [Hn|(c'' & r'' & -> & Hc'')]; [|right; left; eexists; eapply WS_triple; [exact Hw|exact Hc|exact Hany|exact Hc'|exact Hne|exact Hany'|exact Hc'']].
    left. exists r. split; [lens|]. split.
    { eapply ends_trans; [exact H2'|]. eapply ends_trans; [apply ends_cons|]. eapply ends_trans; [exact H2|]. eapply ends_trans; [apply ends_cons|apply ends_app]. }
    destruct Hc as [->| ->], Hc' as [->| ->]; try congruence.
    + pose proof (outcome_both _ _ _ HD (mono_both _ _ (mono_nucleus _ _ _ _) (mono_nucleus _ _ _ _)) H0 (outcome_both _ _ _ (mono_nucleus _ _ _ _) (mono_nucleus _ _ _ _) H3' H3)) as H4.
      apply (outcome_wrap _ [EvScript STSubSup p] _ []) in H4. revert H4. apply outcome_imp.
      intros K es (x & (y & z & Hy & (z1 & z2 & Hz1 & Hz2 & ->) & ->) & ->). rewrite app_nil_r. exists y. split; [exact Hy|]. cbn [app]. eapply S_sup_sub; eassumption.
    + pose proof (outcome_both _ _ _ HD (mono_both _ _ (mono_nucleus _ _ _ _) (mono_nucleus _ _ _ _)) H0 (outcome_both _ _ _ (mono_nucleus _ _ _ _) (mono_nucleus _ _ _ _) H3 H3')) as H4.
      apply (outcome_wrap _ [EvScript STSubSup p] _ []) in H4. revert H4. apply outcome_imp.
      intros K es (x & (y & z & Hy & (z1 & z2 & Hz1 & Hz2 & ->) & ->) & ->). rewrite app_nil_r. exists y. split; [exact Hy|]. cbn [app]. eapply S_sub_sup; eassumption.
Qed.

Lemma scripts_decide : forall p (D : reading) s0 s, mono D -> outcome s0 D -> ends s s0 -> (length s < S n)%nat ->
  (exists r, (length r <= length s)%nat /\ ends r s /\ outcome s0 (scripted_as p D s r)) \/
  (exists e, @wrong_scripts anything al s e) \/ beyond_scripts s.
Proof.
  intros p D s0 s HD H0 He Hs.
  destruct (starts_or 94 s eq_refl) as [(w & s' & Hw & ->)|H1].
  { destruct (mark_decide p D s0 w 94 s' HD H0 He Hw (or_introl eq_refl)) as [(r & A1 & A2)|H]; [lens|left; exists r; split; [lia|exact A2]|right; exact H]. }
  destruct (starts_or 95 s eq_refl) as [(w & s' & Hw & ->)|H2].
  { destruct (mark_decide p D s0 w 95 s' HD H0 He Hw (or_intror eq_refl)) as [(r & A1 & A2)|H]; [lens|left; exists r; split; [lia|exact A2]|right; exact H]. }
  left. exists s. split; [lia|]. split; [exists []; reflexivity|]. revert H0. apply outcome_imp. intros K es X. exists es. split; [exact X|]. apply S_none; assumption.
Qed.

(** ** Formulas *)

Lemma problem_outcome : forall s, problem al s -> outcome s (fun K es => @formula K al s es).
Proof.
  intros s H. right. exists al, s, []. split; [apply part_refl|]. split; [exact H|]. intros f. exists []. apply F_known. right. reflexivity.
Qed.

Lemma element_outcome : forall s r, (length r < n)%nat -> ends r s -> outcome s (fun K es => @element K s es r) -> outcome s (fun K es => @formula K al s es).
Proof.
  intros s r Hr He H. pose proof (outcome_part _ s _ (ends_part _ _ He) (Hform al r Hr)) as H'.
  pose proof (outcome_both _ _ _ (mono_element _ _) (mono_formula _ _) H H') as H4. revert H4. apply outcome_imp. intros K es (x & y & Hx & Hy & ->). eapply F_element; eassumption.
Qed.

Lemma scripted_or : forall s, scripted s \/ ~ starts 94 s /\ ~ starts 95 s.
Proof. intros s. unfold scripted. destruct (starts_or 94 s eq_refl), (starts_or 95 s eq_refl); auto. Qed.

Lemma control_element : forall b cs t s, blank b -> control cs t s -> In cs between -> (length (b ++ t) < S n)%nat -> outcome (b ++ t) (fun K es => @formula K al (b ++ t) es).
Proof.
  intros b cs t s Hb Hc Hi Hlen. pose proof (control_length _ _ _ Hc) as Hl. pose proof (control_ends_b b _ _ _ Hc) as He. assert (Hs : (length s < n)%nat) by lens.
  unfold between in Hi. cbn [In] in Hi. destruct Hi as [<-|[<-|Hi]].
  - destruct (scripted_or s) as [H|[H1 H2]]; [apply problem_outcome; right; eapply U_relax; eassumption|].
    apply (element_outcome _ s Hs He). left. exists []. eapply I_relax; eassumption.
  - destruct (group_or s) as [(w & x & r & Hw & Hx & ->)|[e Hg]].
    2:{ apply problem_outcome. left. exists e. apply X_nucleus. eapply W_no_group; [eassumption..|right; left; reflexivity|exact Hg]. }
    destruct (lex_color x) as [[c|]|e|p|] eqn:Ec.
    2:{ apply problem_outcome. left. eexists. apply X_nucleus. eapply (W_colour al false b (lit "color")); try eassumption. left. reflexivity. }
    2-4: apply problem_outcome; right; apply U_nucleus; eapply (B_colour false b (lit "color")); try eassumption; [left; reflexivity|intros o; congruence].
    apply (element_outcome _ r); [lens|eapply ends_trans; [apply ends_group|exact He]|]. left. eexists. eapply I_color; eassumption.
  - apply in_app_or in Hi as [Hi|Hi].
    + destruct al as [[k m]|] eqn:Eal; [|rewrite <- Eal; apply problem_outcome; left; eexists; apply X_nucleus; eapply W_row; [eassumption..|right; exact Eal]]. rewrite <- Eal.
      destruct (row_space_or s) as [(d & s1 & a & Hd & Ea)|(w & s' & Hw & -> & Hd)]; [|apply problem_outcome; right; eapply U_space; eassumption].
      destruct (lines_total (S (length s1)) s1) as (ls & s2 & Hls); [lia|]. destruct (lines_end _ _ _ Hls) as [a' Ea'].
      destruct (scripted_or s2) as [H|[H1 H2]]; [apply problem_outcome; right; eapply U_row; eassumption|].
      assert (Hs2 : (length s2 < n)%nat) by (rewrite Ea, Ea', !app_length in Hs; lia).
      assert (He2 : ends s2 (b ++ t)) by (eapply ends_trans; [|exact He]; rewrite Ea, Ea', app_assoc; apply ends_app).
      pose proof (outcome_part _ (b ++ t) _ (ends_part _ _ He2) (Hform (Some (0, m)) s2 Hs2)) as H3. rewrite Eal.
      apply (outcome_wrap _ [EvFlow (EFNewLine d ls)] _ []) in H3. revert H3. apply outcome_imp. intros K es (x & Hx & ->). rewrite app_nil_r. cbn [app]. eapply F_row; eassumption.
    + apply in_map_iff in Hi as ((cs' & x) & <- & Hi). apply (element_outcome _ s Hs He). left. eexists. eapply I_switch; eassumption.
Qed.

Lemma formula_decide : forall s, (length s < S n)%nat -> outcome s (fun K es => @formula K al s es).
Proof.
  intros s Hlen. destruct (nucleus_decide false s Hlen) as [(l & r & _ & Hr)|[[e H]|[H|(_ & H)]]].
  - pose proof (reads_any _ _ _ _ Hr) as [a0 Hany]. destruct Hr as (H1 & H2 & H3). destruct (placed_total l r) as (p & r' & a & Hp & Ea).
    assert (He : ends r' s) by (eapply ends_trans; [|exact H2]; exists a; exact Ea). assert (Hl : (length r' <= length r)%nat) by (rewrite Ea, app_length; lia).
    destruct (scripts_decide p (fun K es => @nucleus K false s es l r) s r' (mono_nucleus _ _ _ _) H3 He) as [(r2 & A1 & A2 & A3)|[[e H]|H]]; [lia|..].
    + apply (element_outcome _ r2); [lia|eapply ends_trans; eassumption|]. revert A3. apply outcome_imp. intros K es (x & Hx & Hy). eapply I_nucleus; eassumption.
    + apply problem_outcome. left. exists e. eapply X_scripts; eassumption.
    + apply problem_outcome. right. eapply U_scripts; eassumption.
  - apply problem_outcome. left. exists e. apply X_nucleus, H.
  - apply problem_outcome. right. apply U_nucleus, H.
  - destruct H as [s0 H|b c r Hb Hc|b cs t r Hb Hc Hi]; [| |eapply control_element; eassumption].
    + left. exists []. destruct H; [apply F_end; assumption|apply F_end_comment; assumption].
    + assert (Hor : script_mark c -> outcome (b ++ c :: r) (fun K es => @formula K al (b ++ c :: r) es)).
      { intros Hm. assert (H0 : outcome (b ++ c :: r) (fun K es => es = [EvBegin GNormal; EvEnd])) by (left; exists [EvBegin GNormal; EvEnd]; reflexivity).
        destruct (mark_decide SPRight (fun K es => es = [EvBegin GNormal; EvEnd]) (b ++ c :: r) [] c r) as [(r2 & A1 & A2 & A3)|[[e H]|H]]; cbn [app] in *; try assumption.
        - intros K1 K2 _ es X. exact X.
        - apply ends_app.
        - reflexivity.
        - lens.
        - apply (element_outcome _ r2); [lens|eapply ends_trans; [exact A2|apply ends_app]|]. revert A3. apply outcome_imp. intros K es (x & -> & Hy).
          eapply I_orphan; [exact Hb|reflexivity|exact Hm|exact Hy].
        - apply problem_outcome. left. exists e. apply X_orphan; assumption.
        - apply problem_outcome. right. apply U_orphan; assumption. }
      destruct Hc as [->|[->| ->]]; [apply Hor; left; reflexivity|apply Hor; right; reflexivity|].
      assert (Hno : no_mark al -> outcome (b ++ 38 :: r) (fun K es => @formula K al (b ++ 38 :: r) es)).
      { intros X. apply problem_outcome. left. eexists. apply X_nucleus. apply W_mark; auto. }
      destruct al as [[k m]|] eqn:Eal; [|apply Hno; exact I]. destruct (N.lt_ge_cases k m) as [Hk|Hk]; [|apply Hno; exact Hk]. rewrite <- Eal.
      destruct (scripted_or r) as [H|[A1 A2]]; [apply problem_outcome; right; apply U_mark; assumption|]. rewrite Eal.
      assert (Hs2 : (length r < n)%nat) by lens. assert (He2 : ends r (b ++ 38 :: r)) by (eapply ends_trans; [apply ends_cons|apply ends_app]).
      pose proof (outcome_part _ (b ++ 38 :: r) _ (ends_part _ _ He2) (Hform (Some (k + 1, m)) r Hs2)) as H3.
      apply (outcome_wrap _ [EvFlow EFAlignment] _ []) in H3. revert H3. apply outcome_imp. intros K es (x & Hx & ->). rewrite app_nil_r. cbn [app]. apply F_mark; assumption.
Qed.
End Step.

Lemma decide_all : forall n, (forall al h s, (length s < n)%nat -> nuc al h s) /\ (forall al s, (length s < n)%nat -> outcome s (fun K es => @formula K al s es)).
Proof.
  induction n as [|n [IH1 IH2]]; [split; intros; lia|]. split.
  - intros al h s H. apply (nucleus_decide n al (IH1 al) IH2 h s H).
  - intros al s H. apply (formula_decide n al (IH1 al) IH2 s H).
Qed.

(** Every text is a formula, or comes to something wrong, or to something of
    which nothing is said. *)
Theorem decided : forall t, (exists es, @formula nothing_known None t es) \/
  exists al g pre, part g t /\ comes_to t al g pre /\ ((exists e, @fault anything al g e) \/ unsaid g).
Proof.
  intros t. destruct (proj2 (decide_all (S (length t))) None t) as [H|(al & g & pre & Hp & Hq & H)]; [lia|left; exact H|right].
  exists al, g, pre. split; [exact Hp|]. split; [exact H|exact Hq].
Qed.
