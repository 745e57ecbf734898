(** * XmlFacts: reading the pieces the renderer writes. *)

From Coq Require Import List NArith ZArith Bool Lia.
From Verif Require Import Base Float32 Event DisplayFacts Spans Mathml SpecEvent SpecStream SpecXml.
Import ListNotations.
Open Scope N_scope.

(** ** Cutting *)

Lemma xlex_app : forall st a b m,
  xlex st m (a ++ b) =
  match xlex st m a with
  | Some (l, m') => match xlex st m' b with Some (l', m'') => Some (l ++ l', m'')%list | None => None end
  | None => None
  end.
Proof.
  induction a as [|c a IH]; intros b m; cbn [app xlex].
  - destruct (xlex st m b) as [[l m']|]; reflexivity.
  - destruct (xstep st m c) as [[ts m']|]; [|reflexivity]. rewrite IH.
    destruct (xlex st m' a) as [[l m1]|]; [|reflexivity].
    destruct (xlex st m1 b) as [[l' m2]|]; [|reflexivity]. now rewrite app_assoc.
Qed.

(** Reading [s] from [m] gives the tags [ts] and ends in [m']. *)
Definition lexes (st : bool) (m : xmode) (s : str) (ts : list xtag) (m' : xmode) : Prop :=
  xlex st m s = Some (ts, m').

Lemma lexes_nil : forall st m, lexes st m [] [] m.
Proof. reflexivity. Qed.

Lemma lexes_app : forall st a b m m1 m2 t1 t2,
  lexes st m a t1 m1 -> lexes st m1 b t2 m2 -> lexes st m (a ++ b) (t1 ++ t2) m2.
Proof. unfold lexes. intros. now rewrite xlex_app, H, H0. Qed.

Lemma lexes_cat : forall st a b m m1 m2 t1 t2 t,
  lexes st m a t1 m1 -> lexes st m1 b t2 m2 -> t = (t1 ++ t2)%list -> lexes st m (a ++ b) t m2.
Proof. intros. subst. eapply lexes_app; eassumption. Qed.

(** Attribute values. *)
Definition val_char (c : char) : bool := negb ((c =? 34) || (c =? 60) || (c =? 38)).
Definition val_ok (v : str) : bool := forallb val_char v.

Lemma lexes_val : forall st n atts a v w, val_ok v = true ->
  lexes st (QVal n atts a w) v [] (QVal n atts a (w ++ v)).
Proof.
  intros st n atts a. unfold lexes. induction v as [|c v IH]; intros w H; cbn [xlex].
  - now rewrite app_nil_r.
  - apply andb_prop in H as [H1 H2]. unfold val_char in H1. apply negb_true_iff in H1.
    apply orb_false_iff in H1 as [H1 H3]. apply orb_false_iff in H1 as [H1 H4]. cbn [xstep]. rewrite H1, H3, H4. cbn [orb].
    rewrite (IH (w ++ [c])%list H2). now rewrite <- app_assoc.
Qed.

Definition attr_name (a : str) : bool :=
  match a with [] => false | c :: r => is_alpha c && forallb name_char r end.

Lemma alpha_name : forall c, is_alpha c = true -> name_char c = true.
Proof. intros c H. unfold name_char. now rewrite H. Qed.

Lemma lexes_attr_name : forall st n atts r a, forallb name_char r = true ->
  lexes st (QAttr n atts a) r [] (QAttr n atts (a ++ r)).
Proof.
  intros st n atts. unfold lexes. induction r as [|c r IH]; intros a H; cbn [xlex].
  - now rewrite app_nil_r.
  - apply andb_prop in H as [H1 H2]. cbn [xstep].
    destruct (N.eqb_spec c 61) as [->|_]; [discriminate|]. rewrite H1.
    rewrite (IH (a ++ [c])%list H2). now rewrite <- app_assoc.
Qed.

(** The reader is in the opening tag of [n], after the attributes [atts]. *)
Definition in_open (m : xmode) (n : str) (atts : list (str * str)) : Prop :=
  (m = QOpen n /\ atts = []) \/ exists b, m = QTag n atts b.

Definition fresh (a : str) (atts : list (str * str)) : bool :=
  negb (existsb (fun p => str_eqb a (fst p)) atts).

Lemma in_open_space : forall st m n atts, in_open m n atts -> xstep st m 32 = Some ([], QTag n atts true).
Proof. intros st m n atts [[-> ->]|[b ->]]; reflexivity. Qed.

Lemma alpha_not : forall c, is_alpha c = true -> (c =? 62) = false /\ (c =? 32) = false /\ (c =? 47) = false /\ (c =? 61) = false.
Proof.
  intros c H. repeat split; apply N.eqb_neq; intro E; subst c; discriminate.
Qed.

(** From after the space. *)
Lemma lexes_attr_tail : forall st n atts sp a v, sp || negb st = true -> attr_name a = true -> fresh a atts = true -> val_ok v = true ->
  lexes st (QTag n atts sp) (a ++ [61; 34] ++ v ++ [34]) [] (QTag n (atts ++ [(a, v)]) false).
Proof.
  intros st n atts sp a v Hsp Ha Hf Hv. destruct a as [|c r]; [discriminate|]. cbn [attr_name] in Ha.
  apply andb_prop in Ha as [H1 H2]. destruct (alpha_not c H1) as (E1 & E2 & E3 & E4).
  change ((c :: r) ++ [61; 34] ++ v ++ [34])%list with ([c] ++ r ++ [61; 34] ++ v ++ [34])%list.
  eapply lexes_cat with (t1 := []) (t2 := []) (m1 := QAttr n atts [c]); [| |reflexivity].
  - unfold lexes. cbn [xlex xstep]. unfold in_tag. rewrite E1, E2, E3, H1. now rewrite Hsp.
  - eapply lexes_cat with (t1 := []) (t2 := []); [apply lexes_attr_name; exact H2| |reflexivity].
    change ([c] ++ r)%list with (c :: r).
    eapply lexes_cat with (t1 := []) (t2 := []) (m1 := QVal n atts (c :: r) []); [| |reflexivity].
    + unfold lexes. cbn [xlex xstep]. unfold fresh in Hf. apply negb_true_iff in Hf. rewrite Hf. reflexivity.
    + eapply lexes_cat with (t1 := []) (t2 := []); [apply lexes_val; exact Hv| |reflexivity]. reflexivity.
Qed.

Lemma lexes_attr : forall st m n atts a v, in_open m n atts -> attr_name a = true -> fresh a atts = true -> val_ok v = true ->
  lexes st m (attr a v) [] (QTag n (atts ++ [(a, v)]) false).
Proof.
  intros st m n atts a v Hm Ha Hf Hv. unfold attr.
  eapply lexes_cat with (t1 := []) (t2 := []) (m1 := QTag n atts true); [| |reflexivity].
  - unfold lexes. cbn [xlex]. now rewrite (in_open_space st m n atts Hm).
  - pose proof (lexes_attr_tail st n atts true a v eq_refl Ha Hf Hv) as H. exact H.
Qed.

Lemma lexes_gt : forall st m n atts, in_open m n atts -> lexes st m (lit ">") [XO n atts] QText.
Proof. intros st m n atts [[-> ->]|[b ->]]; reflexivity. Qed.

Lemma in_open_tag : forall n atts b, in_open (QTag n atts b) n atts.
Proof. intros. right. eauto. Qed.
#[export] Hint Resolve in_open_tag : core.

(** Element names. *)
Lemma lexes_name : forall st r n, forallb name_char r = true -> lexes st (QOpen n) r [] (QOpen (n ++ r)).
Proof.
  intros st. unfold lexes. induction r as [|c r IH]; intros n H; cbn [xlex].
  - now rewrite app_nil_r.
  - apply andb_prop in H as [H1 H2]. cbn [xstep]. rewrite H1. rewrite (IH (n ++ [c])%list H2). now rewrite <- app_assoc.
Qed.
Lemma lexes_lt_name : forall st n, attr_name n = true -> lexes st QText (60 :: n) [] (QOpen n).
Proof.
  intros st [|c r] H; [discriminate|]. cbn [attr_name] in H. apply andb_prop in H as [H1 H2].
  destruct (alpha_not c H1) as (E1 & E2 & E3 & E4).
  change (60 :: c :: r) with ([60; c] ++ r)%list.
  eapply lexes_cat with (t1 := []) (t2 := []) (m1 := QOpen [c]); [|exact (lexes_name st r [c] H2)|reflexivity].
  unfold lexes. cbn [xlex xstep]. cbn. rewrite E3, H1. reflexivity.
Qed.
Lemma lexes_close_name : forall st r n, forallb name_char r = true -> lexes st (QClose n) r [] (QClose (n ++ r)).
Proof.
  intros st. unfold lexes. induction r as [|c r IH]; intros n H; cbn [xlex].
  - now rewrite app_nil_r.
  - apply andb_prop in H as [H1 H2]. cbn [xstep].
    destruct (N.eqb_spec c 62) as [->|_]; [discriminate|]. rewrite H1. rewrite (IH (n ++ [c])%list H2). now rewrite <- app_assoc.
Qed.
Lemma lexes_close : forall st n, attr_name n = true -> lexes st QText (close_str n) [XC n] QText.
Proof.
  intros st n H. unfold close_str.
  eapply lexes_cat with (t1 := []) (t2 := [XC n]) (m1 := QClose []); [reflexivity| |reflexivity].
  eapply lexes_cat with (t1 := []) (t2 := [XC n]) (m1 := QClose n); [|reflexivity|reflexivity].
  apply (lexes_close_name st n []). destruct n as [|c r]; [reflexivity|]. cbn [attr_name forallb] in *.
  apply andb_prop in H as [H1 H2]. now rewrite (alpha_name c H1), H2.
Qed.

(** Text. *)

Lemma lexes_char : forall st c, text_char c = true -> lexes st QText [c] [XT c] QText.
Proof.
  intros st c H. unfold text_char in H. apply negb_true_iff, orb_false_iff in H as [H1 H2].
  unfold lexes. cbn [xlex xstep]. now rewrite H1, H2.
Qed.
Lemma lexes_text : forall st s, text_ok s = true -> lexes st QText s (map XT s) QText.
Proof.
  intros st. induction s as [|c s IH]; intro H; [reflexivity|]. apply andb_prop in H as [H1 H2].
  exact (lexes_app st [c] s QText QText QText [XT c] (map XT s) (lexes_char st c H1) (IH H2)).
Qed.

(** What an escaped character is read as. *)
Definition escaped_tag (c : char) : xtag :=
  if c =? 38 then XN (lit "amp") else if c =? 60 then XN (lit "lt") else if c =? 62 then XN (lit "gt") else XT c.
Lemma lexes_escaped : forall st s, lexes st QText (write_escaped s) (map escaped_tag s) QText.
Proof.
  intros st. induction s as [|c s IH]; [reflexivity|].
  cbn [write_escaped flat_map map]. fold (write_escaped s).
  refine (lexes_app st (escape_char c) (write_escaped s) QText QText QText [escaped_tag c] _ _ IH).
  unfold escape_char, escaped_tag. destruct (N.eqb_spec c 38) as [_|H1]; [destruct st; reflexivity|].
  destruct (N.eqb_spec c 60) as [_|H2]; [destruct st; reflexivity|].
  destruct (N.eqb_spec c 62) as [_|H3]; [destruct st; reflexivity|].
  apply lexes_char. unfold text_char. apply N.eqb_neq in H1, H2. now rewrite H1, H2.
Qed.

(** ** What [open_tag] writes *)

Definition style_atts (envs : list env) (s : rstate) : list (str * str) :=
  match t_style s with
  | Some x => if in_script envs then [] else
      [(lit "displaystyle", bool_str (fst (style_args x))); (lit "scriptlevel", n_dec (snd (style_args x)))]
  | None => []
  end.
Definition css_atts (s : rstate) : list (str * str) :=
  match css_entries s with [] => [] | l => [(lit "style", join (lit "; ") l)] end.
Definition class_atts (c : option str) : list (str * str) :=
  match c with Some c => [(lit "class", c)] | None => [] end.
Definition open_atts (envs : list env) (s : rstate) (c : option str) : list (str * str) :=
  (style_atts envs s ++ css_atts s ++ class_atts c)%list.

Lemma num_val : forall s, forallb num_char s = true -> val_ok s = true.
Proof.
  induction s as [|c s IH]; intro H; [reflexivity|]. apply andb_prop in H as [H1 H2]. cbn [val_ok forallb].
  fold (val_ok s). rewrite (IH H2), andb_true_r. unfold val_char.
  destruct (N.eqb_spec c 34) as [->|_]; [discriminate|]. destruct (N.eqb_spec c 60) as [->|_]; [discriminate|].
  destruct (N.eqb_spec c 38) as [->|_]; [discriminate|]. reflexivity.
Qed.

Lemma val_ok_app : forall a b, val_ok (a ++ b) = val_ok a && val_ok b.
Proof. intros. apply forallb_app. Qed.

Lemma rgb_val : forall c, val_ok (rgb_str c) = true.
Proof.
  intros [[r g] b]. unfold rgb_str. rewrite !val_ok_app.
  rewrite !(num_val (n_dec _)) by apply n_dec_num. reflexivity.
Qed.

Lemma css_val : forall s, val_ok (join (lit "; ") (css_entries s)) = true.
Proof.
  intro s. unfold css_entries. destruct (t_text s), (t_border s), (t_background s); cbn [app join];
    rewrite ?val_ok_app, ?rgb_val; reflexivity.
Qed.

Lemma dim_val : forall d, f32_ok (dvalue d) -> val_ok (dim_display d) = true.
Proof. intros d H. apply num_val. now apply dim_display_num. Qed.

(** The names of the attributes that [open_tag] may write. *)
Definition open_names : list str := [lit "displaystyle"; lit "scriptlevel"; lit "style"; lit "class"].

Lemma open_atts_names : forall envs s c p, In p (open_atts envs s c) -> In (fst p) open_names.
Proof.
  intros envs s c p H. unfold open_atts in H. apply in_app_or in H as [H|H]; [|apply in_app_or in H as [H|H]].
  - unfold style_atts in H. destruct (t_style s); [|easy]. destruct (in_script envs); [easy|].
    destruct H as [<-|[<-|[]]]; cbn; tauto.
  - unfold css_atts in H. destruct (css_entries s); [easy|]. destruct H as [<-|[]]; cbn; tauto.
  - destruct c; [|easy]. destruct H as [<-|[]]; cbn; tauto.
Qed.

Lemma fresh_open : forall a envs s c, mem a open_names = false -> fresh a (open_atts envs s c) = true.
Proof.
  intros a envs s c H. unfold fresh. apply negb_true_iff. apply not_true_is_false. intro E.
  apply existsb_exists in E as (p & H1 & H2). apply open_atts_names in H1. apply str_eqb_eq in H2.
  apply not_true_iff_false in H. apply H. unfold mem. apply existsb_exists. exists (fst p). split; auto.
  apply str_eqb_eq. exact H2.
Qed.

Lemma fresh_app : forall a l l', fresh a (l ++ l') = fresh a l && fresh a l'.
Proof. intros. unfold fresh. rewrite existsb_app. apply negb_orb. Qed.

Lemma lexes_open : forall st envs s n c, attr_name n = true ->
  match c with Some v => val_ok v = true | None => True end ->
  exists m, lexes st QText (open_str envs s n c) [] m /\ in_open m n (open_atts envs s c).
Proof.
  intros st envs s n c Hn Hc. unfold open_str, open_atts.
  assert (A1 : exists m, lexes st QText ([60] ++ n ++ match t_style s with
        | Some x => if in_script envs then [] else
            let (d, l) := style_args x in attr (lit "displaystyle") (bool_str d) ++ attr (lit "scriptlevel") (n_dec l)
        | None => [] end)%list [] m /\ in_open m n (style_atts envs s)).
  { unfold style_atts.
    assert (B : exists m, lexes st QText ([60] ++ n ++ [])%list [] m /\ in_open m n []).
    { exists (QOpen n). rewrite app_nil_r. split; [exact (lexes_lt_name st n Hn)|left; auto]. }
    destruct (t_style s) as [x|]; [|exact B]. destruct (in_script envs); [exact B|].
    rewrite app_assoc. destruct x; cbn [style_args fst snd]; eexists; (split; [|right; eexists; reflexivity]);
      (eapply lexes_cat with (t1 := []) (t2 := []);
        [exact (lexes_lt_name st n Hn)| |reflexivity];
        eapply lexes_cat with (t1 := []) (t2 := []);
        [apply lexes_attr with (n := n) (atts := []); [left; auto|reflexivity|reflexivity|reflexivity]| |reflexivity];
        apply lexes_attr with (n := n) (atts := [(lit "displaystyle", _)]); [auto|reflexivity|reflexivity|reflexivity]). }
  destruct A1 as (m1 & R1 & O1).
  assert (A2 : exists m, lexes st m1 match css_entries s with [] => [] | l => attr (lit "style") (join (lit "; ") l) end [] m
               /\ in_open m n (style_atts envs s ++ css_atts s)).
  { pose proof (css_val s) as V. unfold css_atts. destruct (css_entries s) as [|e l].
    - exists m1. rewrite app_nil_r. split; [apply lexes_nil|exact O1].
    - eexists. split; [apply (lexes_attr st m1 n _ (lit "style") _ O1)|]; [reflexivity| |exact V|auto].
      unfold style_atts. destruct (t_style s); [|reflexivity]. destruct (in_script envs); reflexivity. }
  destruct A2 as (m2 & R2 & O2).
  assert (A3 : exists m, lexes st m2 match c with Some c => attr (lit "class") c | None => [] end [] m
               /\ in_open m n ((style_atts envs s ++ css_atts s) ++ class_atts c)).
  { destruct c as [v|]; cbn [class_atts].
    - eexists. split; [apply (lexes_attr st m2 n _ (lit "class") _ O2)|]; [reflexivity| |exact Hc|auto].
      rewrite fresh_app. unfold style_atts, css_atts. destruct (css_entries s); (destruct (t_style s); [destruct (in_script envs)|]); reflexivity.
    - exists m2. rewrite app_nil_r. split; [apply lexes_nil|exact O2]. }
  destruct A3 as (m3 & R3 & O3). exists m3. rewrite <- app_assoc in O3. split; [|exact O3].
  pose proof (lexes_app st _ _ _ _ _ _ _ R1 (lexes_app st _ _ _ _ _ _ _ R2 R3)) as R. cbn [app] in R.
  rewrite <- !app_assoc in R. cbn [app]. exact R.
Qed.

(** ** Reading, or not *)

(** With [None] the text is not looked at: what the renderer does to its stacks
    does not depend on the characters it writes. *)
Definition reads (st : option bool) (m : xmode) (s : str) (ts : list xtag) (m' : xmode) : Prop :=
  match st with Some b => lexes b m s ts m' | None => True end.

Ltac lift := match goal with |- context [reads ?st] => destruct st as [?b|]; cbn [reads]; [|exact Logic.I] end.
Ltac lexlit x := destruct x as [[]|]; first [exact Logic.I | reflexivity].

Lemma reads_nil : forall st m, reads st m [] [] m.
Proof. intros st m. lift. apply lexes_nil. Qed.
Lemma reads_app : forall st a b m m1 m2 t1 t2,
  reads st m a t1 m1 -> reads st m1 b t2 m2 -> reads st m (a ++ b) (t1 ++ t2) m2.
Proof. intros [st|] a b m m1 m2 t1 t2 H1 H2; [|exact I]. exact (lexes_app st a b m m1 m2 t1 t2 H1 H2). Qed.
Lemma reads_cat : forall st a b m m1 m2 t1 t2 t,
  reads st m a t1 m1 -> reads st m1 b t2 m2 -> t = (t1 ++ t2)%list -> reads st m (a ++ b) t m2.
Proof. intros. subst. eapply reads_app; eassumption. Qed.
Lemma reads_attr_tail : forall st n atts sp a v, (st = Some true -> sp = true) -> attr_name a = true -> fresh a atts = true -> val_ok v = true ->
  reads st (QTag n atts sp) (a ++ [61; 34] ++ v ++ [34]) [] (QTag n (atts ++ [(a, v)]) false).
Proof.
  intros st n atts sp a v Hsp Ha Hf Hv. lift. apply lexes_attr_tail; auto. destruct b; [rewrite Hsp by reflexivity; reflexivity|apply orb_true_r].
Qed.
Lemma reads_attr : forall st m n atts a v, in_open m n atts -> attr_name a = true -> fresh a atts = true -> val_ok v = true ->
  reads st m (attr a v) [] (QTag n (atts ++ [(a, v)]) false).
Proof. intros st m n atts a v H1 H2 H3 H4. lift. now apply lexes_attr. Qed.
Lemma reads_gt : forall st m n atts, in_open m n atts -> reads st m (lit ">") [XO n atts] QText.
Proof. intros st m n atts H. lift. now apply lexes_gt. Qed.
Lemma reads_close : forall st n, attr_name n = true -> reads st QText (close_str n) [XC n] QText.
Proof. intros st n H. lift. now apply lexes_close. Qed.
Lemma reads_char : forall st c, st = None \/ text_char c = true -> reads st QText [c] [XT c] QText.
Proof. intros st c H. lift. apply lexes_char. destruct H; [discriminate|assumption]. Qed.
Lemma reads_text : forall st s, st = None \/ text_ok s = true -> reads st QText s (map XT s) QText.
Proof. intros st s H. lift. apply lexes_text. destruct H; [discriminate|assumption]. Qed.
Lemma reads_escaped : forall st s, reads st QText (write_escaped s) (map escaped_tag s) QText.
Proof. intros st s. lift. apply lexes_escaped. Qed.
Lemma reads_open : forall st envs s n c, attr_name n = true ->
  match c with Some v => val_ok v = true | None => True end ->
  exists m, reads st QText (open_str envs s n c) [] m /\ in_open m n (open_atts envs s c).
Proof.
  intros [st|] envs s n c Hn Hc; [exact (lexes_open st envs s n c Hn Hc)|].
  destruct (lexes_open false envs s n c Hn Hc) as (m & _ & H). exists m. split; [exact I|exact H].
Qed.

(** How the output is read, and what is checked. *)
Record ropts := mkRopts { strict : option bool; checked :> xopts }.

(** ** Nesting *)

Lemma build_app : forall o a b K,
  build o K (a ++ b) = match build o K a with Some K' => build o K' b | None => None end.
Proof.
  induction a as [|t a IH]; intros b K; cbn [app build]; [reflexivity|].
  destruct K as [|[p k] K']; [reflexivity|].
  destruct t; try destruct (fits p n); try destruct (token_elem p); try destruct (str_eqb n p && complete o p k);
    try reflexivity; apply IH.
Qed.

Lemma build_text : forall o l n k K, token_elem n = true ->
  Forall (fun t => match t with XT _ | XN _ => True | _ => False end) l ->
  build o ((n, k) :: K) l = Some ((n, k) :: K).
Proof.
  intros o l n k K Hn H. induction H as [|t l Ht H IH]; [reflexivity|].
  destruct t; try contradiction; cbn [build]; now rewrite Hn.
Qed.

Lemma fits_formula : forall p n, holds_formulas p = true -> formula_elem n = true -> fits p n = true.
Proof. intros p n H1 H2. unfold fits. now rewrite H1, H2. Qed.

(** Tags that add [k] formulas to any element that holds formulas. *)
Definition adds (o : xopts) (k : nat) (ts : list xtag) : Prop :=
  forall p j K, holds_formulas p = true -> build o ((p, j) :: K) ts = Some ((p, (k + j)%nat) :: K).

Lemma adds_nil : forall o, adds o 0 [].
Proof. intros o p j K H. reflexivity. Qed.
Lemma adds_app : forall o a b x y, adds o x a -> adds o y b -> adds o (x + y) (a ++ b).
Proof.
  intros o a b x y Ha Hb p j K H. rewrite build_app, (Ha p j K H), (Hb p _ K H). do 3 f_equal. lia.
Qed.

Definition is_text (t : xtag) : Prop := match t with XT _ | XN _ => True | _ => False end.

(** A token element. *)
Lemma adds_token : forall o n atts l, token_elem n = true -> formula_elem n = true -> required n = None ->
  Forall is_text l -> adds o 1 (XO n atts :: l ++ [XC n]).
Proof.
  intros o n atts l H1 H2 H3 Hl p j K Hp. cbn [build]. rewrite (fits_formula p n Hp H2).
  rewrite build_app, build_text by assumption. cbn [build]. rewrite str_eqb_refl.
  unfold complete. rewrite H3. destruct (arity o); reflexivity.
Qed.
Lemma adds_empty : forall o n atts, formula_elem n = true -> adds o 1 [XE n atts].
Proof. intros o n atts H p j K Hp. cbn [build]. now rewrite (fits_formula p n Hp H). Qed.

Lemma text_map : forall s, Forall is_text (map XT s).
Proof. induction s; constructor; cbn; auto. Qed.
Lemma text_escaped : forall s, Forall is_text (map escaped_tag s).
Proof.
  induction s as [|c s IH]; constructor; auto. unfold escaped_tag. repeat destruct (_ =? _); exact I.
Qed.
