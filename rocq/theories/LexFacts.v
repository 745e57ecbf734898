(** * LexFacts: lemmas about the lexers of Lex.v. *)

From Coq Require Import List NArith ZArith Bool Lia Arith.
From Verif Require Import Base Float32 Event Tables Lex SpecLex.
Import ListNotations.
Open Scope N_scope.

Lemma strip_prefix_app : forall p r, strip_prefix p (p ++ r) = Some r.
Proof. intros. apply strip_prefix_some. reflexivity. Qed.

Lemma starts_with_app : forall p r, starts_with p (p ++ r) = true.
Proof. intros. apply starts_with_spec. eauto. Qed.

Lemma starts_with_false : forall p s, starts_with p s = false <-> ~ prefix p s.
Proof.
  intros p s. unfold prefix. destruct (starts_with p s) eqn:E.
  - apply starts_with_spec in E. split; [discriminate|]. intros H. exfalso. apply H. exact E.
  - split; [|reflexivity]. intros _ H. apply starts_with_spec in H. congruence.
Qed.

Lemma has_bytes_app : forall p r, has_bytes (blen p) (p ++ r) = true.
Proof. intros. apply has_bytes_spec. rewrite blen_app. lia. Qed.

(** ** Groups *)

Definition gapp (p : str) (r : gres) : gres :=
  match r with GFound a b => GFound (p ++ a) b | _ => r end.

Lemma gapp_nil : forall r, gapp [] r = r.
Proof. destruct r; reflexivity. Qed.

Lemma gapp_cons : forall c p r, gcons c (gapp p r) = gapp (c :: p) r.
Proof. destruct r; reflexivity. Qed.

Lemma gapp_app : forall p q r, gapp p (gapp q r) = gapp (p ++ q) r.
Proof. destruct r; cbn; rewrite ?app_assoc; reflexivity. Qed.

Lemma gscan_skip : forall st en p esc d s,
  gscan st en (skip_mode (length p)) esc d (p ++ s) = gapp p (gscan st en MNorm esc d s).
Proof.
  induction p as [|c p IH]; intros.
  - cbn [length skip_mode app]. rewrite gapp_nil. reflexivity.
  - cbn [length skip_mode app gscan]. replace (S (length p) - 1)%nat with (length p) by lia.
    rewrite IH, gapp_cons. reflexivity.
Qed.

Lemma gscan_com : forall st en t esc d s, ~ In 10 t ->
  gscan st en MCom esc d (t ++ 10 :: s) = gapp (t ++ [10]) (gscan st en MNorm esc d s).
Proof.
  induction t as [|c t IH]; intros esc d s H.
  - cbn. destruct (gscan st en MNorm esc d s); reflexivity.
  - cbn [app gscan]. destruct (N.eqb_spec c 10) as [->|Hc].
    + exfalso. apply H. left. reflexivity.
    + rewrite IH; [|intros Hi; apply H; right; exact Hi].
      rewrite gapp_cons. reflexivity.
Qed.

(** What the delimiters of a group must satisfy: not empty, neither is a prefix
    of the other, and neither starts with a comment. *)
Definition good_delims (st en : str) : Prop :=
  st <> [] /\ en <> [] /\
  (forall r, ~ prefix st (en ++ r)) /\ (forall r, ~ prefix en (st ++ r)) /\
  (forall r, st <> 37 :: r) /\ (forall r, en <> 37 :: r).

Lemma enclosed_bytes : forall st en s a r, enclosed st en s a r -> blen en <= blen s.
Proof.
  induction 1; rewrite ?blen_app in *; cbn [blen] in *; rewrite ?blen_app in *; cbn [blen] in *; lia.
Qed.

Lemma enclosed_text : forall st en s a r, enclosed st en s a r -> s = a ++ en ++ r.
Proof.
  induction 1; subst; cbn [app]; rewrite <- ?app_assoc; cbn [app]; rewrite <- ?app_assoc; cbn; reflexivity.
Qed.

(** The scanner at depth [d] on text that is enclosed: goes on after the closing
    delimiter at the depth below. *)
Definition down (st en : str) (d : N) (a : str) (r : str) : gres :=
  if d =? 0 then GFound a r else gapp (a ++ en) (gscan st en MNorm false (d - 1) r).

Lemma down_app : forall st en d p a r, gapp p (down st en d a r) = down st en d (p ++ a) r.
Proof.
  intros. unfold down. destruct (d =? 0); [reflexivity|].
  rewrite gapp_app, app_assoc. reflexivity.
Qed.

Lemma gscan_enclosed : forall st en, good_delims st en -> forall s a r, enclosed st en s a r ->
  forall d, gscan st en MNorm false d s = down st en d a r.
Proof.
  intros st en (Hst & Hen & Hse & Hes & Hcs & Hce). induction 1 as
    [r | x s a r H1 H2 Hp1 Hp2 H IH | x s a r Hp1 Hp2 H IH | t s a r Ht H IH | s a r1 b r H IH Hb IHb]; intros d.
  - unfold down. destruct en as [|x en]; [congruence|]. cbn [app gscan].
    rewrite (starts_with_app (x :: en) r : starts_with (x :: en) (x :: en ++ r) = true).
    rewrite (strip_prefix_app (x :: en) r : strip_prefix (x :: en) (x :: en ++ r) = Some r).
    destruct (d =? 0) eqn:Hd; cbn [negb andb]; [reflexivity|].
    rewrite (has_bytes_app (x :: en) r : has_bytes (blen (x :: en)) (x :: en ++ r) = true).
    cbn [negb]. assert (Hs : starts_with st (x :: en ++ r) = false)
      by (apply starts_with_false; apply (Hse r)).
    rewrite Hs. cbn [length]. replace (S (length en) - 1)%nat with (length en) by lia.
    rewrite gscan_skip, gapp_cons. reflexivity.
  - assert (Hb : has_bytes (blen en) (x :: s) = true).
    { apply has_bytes_spec. apply enclosed_bytes in H. cbn [blen]. lia. }
    cbn [gscan]. rewrite Hb. apply starts_with_false in Hp1, Hp2. rewrite Hp1, Hp2.
    destruct (N.eqb_spec x 92); [congruence|]. destruct (N.eqb_spec x 37); [congruence|].
    rewrite ?andb_false_r. cbn [negb andb]. rewrite IH.
    change (x :: a) with ([x] ++ a). rewrite <- down_app.
    destruct (down st en d a r); reflexivity.
  - assert (Hb : has_bytes (blen en) (92 :: x :: s) = true).
    { apply has_bytes_spec. apply enclosed_bytes in H. cbn [blen]. lia. }
    assert (Hb' : has_bytes (blen en) (x :: s) = true).
    { apply has_bytes_spec. apply enclosed_bytes in H. cbn [blen]. lia. }
    cbn [gscan]. rewrite Hb. apply starts_with_false in Hp1, Hp2. rewrite Hp1, Hp2.
    change (92 =? 92) with true. cbn [negb andb]. rewrite ?andb_false_r. cbn [negb andb].
    cbn [gscan]. rewrite Hb'. cbn [negb andb]. rewrite ?andb_false_r.
    rewrite IH.
    change (92 :: x :: a) with ([92; x] ++ a). rewrite <- down_app.
    destruct (x =? 92); destruct (down st en d a r); reflexivity.
  - assert (Hb : has_bytes (blen en) (37 :: t ++ 10 :: s) = true).
    { apply has_bytes_spec. apply enclosed_bytes in H. cbn [blen]. rewrite blen_app. cbn [blen]. lia. }
    cbn [gscan]. rewrite Hb.
    assert (S1 : starts_with st (37 :: t ++ 10 :: s) = false).
    { destruct st as [|y st]; [congruence|]. cbn. destruct (N.eqb_spec y 37); [|reflexivity].
      subst. exfalso. eapply Hcs. reflexivity. }
    assert (S2 : starts_with en (37 :: t ++ 10 :: s) = false).
    { destruct en as [|y en]; [congruence|]. cbn. destruct (N.eqb_spec y 37); [|reflexivity].
      subst. exfalso. eapply Hce. reflexivity. }
    rewrite S1, S2. cbn [negb andb]. rewrite ?andb_false_r.
    change (37 =? 92) with false. change (37 =? 37) with true. cbn [negb andb].
    rewrite gscan_com by assumption. rewrite IH, gapp_cons.
    rewrite down_app. cbn [app]. rewrite <- app_assoc. reflexivity.
  - assert (Hb' : has_bytes (blen en) (st ++ s) = true).
    { apply has_bytes_spec. apply enclosed_bytes in H. rewrite blen_app. lia. }
    destruct st as [|x st]; [congruence|]. cbn [app] in Hb' |- *.
    assert (S2 : starts_with en (x :: st ++ s) = false) by (apply starts_with_false; apply (Hes s)).
    cbn [gscan]. rewrite Hb', S2, (starts_with_app (x :: st) s : starts_with (x :: st) (x :: st ++ s) = true).
    cbn [negb andb]. rewrite ?andb_false_r. cbn [length].
    replace (S (length st) - 1)%nat with (length st) by lia.
    rewrite gscan_skip, IH. unfold down at 1.
    destruct (N.eqb_spec (d + 1) 0); [lia|]. replace (d + 1 - 1) with d by lia.
    rewrite IHb, gapp_cons, !gapp_app.
    rewrite down_app. cbn [app]. rewrite <- !app_assoc. reflexivity.
Qed.

(** The converse, by induction on the length of the text: what the scanner
    finds is a content enclosed at every level. *)
Inductive enclosed_at (st en : str) : nat -> str -> str -> str -> Prop :=
| ea_0 : forall s a r, enclosed st en s a r -> enclosed_at st en 0 s a r
| ea_S : forall d s a r1 b r, enclosed st en s a r1 -> enclosed_at st en d r1 b r ->
    enclosed_at st en (S d) s (a ++ en ++ b) r.

Lemma ea_step : forall st en d s s' a r p,
  (forall a' r', enclosed st en s a' r' -> enclosed st en s' (p ++ a') r') ->
  enclosed_at st en d s a r -> enclosed_at st en d s' (p ++ a) r.
Proof.
  intros st en d s s' a r p H Ha. destruct Ha; [constructor; auto|].
  rewrite app_assoc. econstructor; eauto.
Qed.

Lemma gcons_found : forall c r a b, gcons c r = GFound a b ->
  exists a', a = c :: a' /\ r = GFound a' b.
Proof. destruct r; cbn; intros; try discriminate. injection H as <- <-. eauto. Qed.

Lemma gapp_found : forall p r a b, gapp p r = GFound a b ->
  exists a', a = p ++ a' /\ r = GFound a' b.
Proof. destruct r; cbn; intros; try discriminate. injection H as <- <-. eauto. Qed.

Lemma gscan_com_inv : forall st en s esc d a r, gscan st en MCom esc d s = GFound a r ->
  exists t s' a', s = t ++ 10 :: s' /\ ~ In 10 t /\ a = t ++ 10 :: a' /\
    gscan st en MNorm esc d s' = GFound a' r.
Proof.
  induction s as [|c s IH]; intros esc d a r H; [discriminate|].
  cbn [gscan] in H. apply gcons_found in H. destruct H as (a' & -> & H).
  destruct (N.eqb_spec c 10) as [->|Hc].
  - exists [], s, a'. split; [reflexivity|]. split; [intros []|]. split; [reflexivity|exact H].
  - apply IH in H. destruct H as (t & s' & a2 & -> & Ht & -> & H).
    exists (c :: t), s', a2. split; [reflexivity|]. split; [|split; [reflexivity|exact H]].
    intros [E|Hi]; [congruence|]. auto.
Qed.

Lemma gscan_sound : forall st en, good_delims st en -> forall n s d a r,
  (length s <= n)%nat ->
  gscan st en MNorm false d s = GFound a r -> enclosed_at st en (N.to_nat d) s a r.
Proof.
  intros st en (Hst & Hen & Hse & Hes & Hcs & Hce).
  induction n as [|n IHn]; intros s d a r Hlen H.
  - destruct s; [|cbn in Hlen; lia]. exfalso. destruct en as [|x en]; [congruence|].
    cbn in H. rewrite andb_false_r in H.
    destruct (negb (if clen x + blen en =? 0 then true else false)); discriminate.
  - destruct s as [|c s].
    { exfalso. destruct en as [|x en]; [congruence|].
      cbn in H. rewrite andb_false_r in H.
      destruct (negb (if clen x + blen en =? 0 then true else false)); discriminate. }
    cbn [gscan negb andb] in H.
    destruct ((d =? 0) && starts_with en (c :: s)) eqn:E.
    + apply andb_prop in E. destruct E as [E1 E2]. apply N.eqb_eq in E1. subst d.
      apply starts_with_spec in E2. destruct E2 as [t E2]. rewrite E2 in *.
      rewrite strip_prefix_app in H.
      injection H as <- <-. constructor. constructor.
    + destruct (negb (has_bytes (blen en) (c :: s))); [discriminate|].
      cbn in Hlen.
      destruct (starts_with st (c :: s)) eqn:Es1.
      * apply gcons_found in H. destruct H as (a' & -> & H).
        apply starts_with_spec in Es1. destruct Es1 as [t Et].
        destruct st as [|x st]; [congruence|]. cbn [app] in Et. injection Et as <- ->.
        cbn [length] in H. replace (S (length st) - 1)%nat with (length st) in H by lia.
        rewrite gscan_skip in H. apply gapp_found in H. destruct H as (a2 & -> & H).
        apply IHn in H; [|rewrite app_length in Hlen; lia].
        replace (N.to_nat (d + 1)) with (S (N.to_nat d)) in H by lia.
        inversion H as [|d' s' a3 r1 b r' He Hr]; subst.
        replace (c :: st ++ a3 ++ en ++ b) with (((c :: st) ++ a3 ++ en) ++ b)
          by (rewrite <- !app_assoc; reflexivity).
        eapply ea_step; [|exact Hr]. intros a' r' Hb. cbn [app].
        rewrite <- !app_assoc.
        exact (enc_nest (c :: st) en t a3 r1 a' r' He Hb).
      * destruct (starts_with en (c :: s)) eqn:Es2.
        -- apply gcons_found in H. destruct H as (a' & -> & H).
           assert (Hd : d <> 0) by (intros ->; discriminate).
           apply starts_with_spec in Es2. destruct Es2 as [t Et].
           destruct en as [|x en]; [congruence|]. cbn [app] in Et. injection Et as <- ->.
           cbn [length] in H. replace (S (length en) - 1)%nat with (length en) in H by lia.
           rewrite gscan_skip in H. apply gapp_found in H. destruct H as (a2 & -> & H).
           apply IHn in H; [|rewrite app_length in Hlen; lia].
           replace (N.to_nat d) with (S (N.to_nat (d - 1))) by lia.
           change (c :: en ++ a2) with ([] ++ (c :: en) ++ a2).
           econstructor; [|exact H].
           change (c :: en ++ t) with ((c :: en) ++ t). constructor.
        -- destruct (N.eqb_spec c 92) as [->|H92].
           ++ apply gcons_found in H. destruct H as (a' & -> & H).
              destruct s as [|x s].
              { cbn in H. match type of H with (if ?b then _ else _) = _ => destruct b end; discriminate. }
              cbn [gscan negb andb] in H.
              destruct (negb (has_bytes (blen en) (x :: s))); [discriminate|].
              rewrite ?andb_false_r in H.
              assert (H' : gcons x (gscan st en MNorm false d s) = GFound a' r)
                by (destruct (x =? 92); exact H).
              apply gcons_found in H'. destruct H' as (a2 & -> & H').
              cbn in Hlen. apply IHn in H'; [|lia].
              change (92 :: x :: a2) with ([92; x] ++ a2).
              eapply ea_step; [|exact H']. intros. cbn [app].
              apply starts_with_false in Es1, Es2. constructor; assumption.
           ++ rewrite andb_true_r in H. destruct (N.eqb_spec c 37) as [->|H37].
              ** apply gcons_found in H. destruct H as (a' & -> & H).
                 apply gscan_com_inv in H. destruct H as (t & s' & a2 & -> & Ht & -> & H).
                 rewrite app_length in Hlen. cbn in Hlen.
                 apply IHn in H; [|lia].
                 replace (37 :: t ++ 10 :: a2) with ((37 :: t ++ [10]) ++ a2)
                   by (cbn; rewrite <- app_assoc; reflexivity).
                 eapply ea_step; [|exact H]. intros. cbn [app]. rewrite <- app_assoc. cbn [app].
                 constructor; assumption.
              ** apply gcons_found in H. destruct H as (a' & -> & H).
                 apply IHn in H; [|lia]. change (c :: a') with ([c] ++ a').
                 eapply ea_step; [|exact H]. intros. cbn [app].
                 apply starts_with_false in Es1, Es2. constructor; assumption.
Qed.

(** Two texts that differ at a common position. *)
Fixpoint differ (a b : str) : bool :=
  match a, b with
  | x :: a', y :: b' => negb (x =? y) || differ a' b'
  | _, _ => false
  end.

Lemma differ_prefix : forall a b r, differ a b = true -> ~ prefix a (b ++ r).
Proof.
  induction a as [|x a IH]; intros [|y b] r H; cbn in H; try discriminate.
  intros [t Ht]. cbn in Ht. injection Ht as -> Ht.
  rewrite N.eqb_refl in H. cbn in H. eapply IH; [exact H|]. exists t. exact Ht.
Qed.

Lemma differ_sym : forall a b, differ a b = differ b a.
Proof.
  induction a as [|x a IH]; intros [|y b]; cbn; auto. rewrite IH, N.eqb_sym. reflexivity.
Qed.

Definition head_not (c : char) (s : str) : bool :=
  match s with [] => true | x :: _ => negb (x =? c) end.

Lemma good_delims_dec : forall st en,
  negb (is_nil st) && negb (is_nil en) && differ st en && head_not 37 st && head_not 37 en = true ->
  good_delims st en.
Proof.
  intros st en H. repeat (apply andb_prop in H; destruct H as [H ?]).
  unfold good_delims. repeat split.
  - destruct st; [discriminate|congruence].
  - destruct en; [discriminate|congruence].
  - intros r. apply differ_prefix. assumption.
  - intros r. apply differ_prefix. rewrite differ_sym. assumption.
  - intros r ->. discriminate.
  - intros r ->. discriminate.
Qed.

Lemma delims_good : forall k, good_delims (opening_str k) (closing_str k).
Proof.
  intros k. apply good_delims_dec.
  destruct k; repeat match goal with b : bool |- _ => destruct b | m : matrix_type |- _ => destruct m end;
    reflexivity.
Qed.

Lemma group_content_iff : forall k s a r,
  group_content k s = (Ok a, r) <-> enclosed (opening_str k) (closing_str k) s a r.
Proof.
  intros k s a r. unfold group_content. split.
  - intros H. destruct (gscan _ _ MNorm false 0 s) eqn:E; try discriminate.
    injection H as -> ->. eapply gscan_sound in E; [|apply delims_good|reflexivity].
    inversion E; subst; assumption.
  - intros H. rewrite (gscan_enclosed _ _ (delims_good k) _ _ _ H 0). reflexivity.
Qed.

Lemma group_content_cases : forall k s,
  (exists a r, group_content k s = (Ok a, r)) \/
  (exists r, group_content k s = (Err (EUnbalancedGroup (Some k)), r) /\ (r = [] \/ r = s)).
Proof.
  intros. unfold group_content. destruct (gscan _ _ _ _ _ _); eauto 10.
Qed.

Lemma group_content_fails : forall k s,
  (exists r, group_content k s = (Err (EUnbalancedGroup (Some k)), r)) <->
  ~ exists a r, enclosed (opening_str k) (closing_str k) s a r.
Proof.
  intros k s. destruct (group_content_cases k s) as [(a & r & H)|(r & H & _)]; split; intros H'.
  - destruct H' as [r' H']. congruence.
  - exfalso. apply H'. exists a, r. apply group_content_iff. exact H.
  - intros (a & r' & H2). apply group_content_iff in H2. congruence.
  - eauto.
Qed.

(** One-character delimiters: [enclosed] is [balanced]. *)
Lemma prefix1 : forall o x s, prefix [o] (x :: s) <-> x = o.
Proof.
  intros. split; [intros [t Ht]; cbn in Ht; congruence|]. intros ->. exists s. reflexivity.
Qed.

Lemma enclosed_balanced : forall o c s a r, o <> c ->
  enclosed [o] [c] s a r -> balanced o c a /\ s = a ++ c :: r.
Proof.
  intros o c s a r Hoc H. split; [|exact (enclosed_text _ _ _ _ _ H)].
  induction H.
  - constructor.
  - constructor; auto; intros E; [apply H1|apply H2]; apply prefix1; exact E.
  - apply bal_escape; auto.
  - apply bal_comment; auto.
  - cbn [app]. apply bal_group; auto.
Qed.

Lemma balanced_enclosed : forall o c, o <> c -> o <> 92 -> c <> 92 -> forall a, balanced o c a ->
  forall r, enclosed [o] [c] (a ++ c :: r) a r.
Proof.
  intros o c Hoc Ho Hc. induction 1; intros r.
  - apply (enc_close [o] [c]).
  - cbn [app]. apply enc_char; auto; rewrite prefix1; assumption.
  - cbn [app]. apply enc_escape; auto; rewrite prefix1; congruence.
  - cbn [app]. rewrite <- app_assoc. cbn [app]. apply enc_comment; auto.
  - cbn [app]. rewrite <- app_assoc. cbn [app].
    apply (enc_nest [o] [c] (g ++ c :: s ++ c :: r) g (s ++ c :: r) s r); auto.
Qed.

Definition brace_like (k : gkind) (o c : char) : Prop :=
  (k = GKNormal /\ o = 123 /\ c = 125) \/ (k = GKOptional /\ o = 91 /\ c = 93).

Lemma group_content_balanced : forall k o c, brace_like k o c -> forall s a r,
  group_content k s = (Ok a, r) <-> (s = a ++ c :: r /\ balanced o c a).
Proof.
  intros k o c Hk s a r. rewrite group_content_iff.
  assert (E : opening_str k = [o] /\ closing_str k = [c] /\ o <> c /\ o <> 92 /\ c <> 92).
  { destruct Hk as [(-> & -> & ->)|(-> & -> & ->)]; repeat split; discriminate. }
  destruct E as (-> & -> & H1 & H2 & H3). split.
  - intros H. apply enclosed_balanced in H; tauto.
  - intros [-> H]. apply balanced_enclosed; assumption.
Qed.

(** What every lexer leaves is a suffix of what it was given. *)
Definition leaves_suffix {A} (l : lexer A) : Prop := forall s, suffix (snd (l s)) s.

Lemma gscan_text : forall st en s m esc d a r,
  gscan st en m esc d s = GFound a r -> en <> [] -> s = a ++ en ++ r.
Proof.
  intros st en. induction s as [|c s IH]; intros m esc d a r H Hen.
  - destruct m; cbn [gscan] in H; try discriminate.
    destruct (negb esc && (d =? 0) && starts_with en []) eqn:E.
    + apply andb_prop in E. destruct E as [_ E]. destruct en; [congruence|discriminate].
    + destruct (negb (has_bytes (blen en) [])) eqn:E2; rewrite ?E2 in H; discriminate.
  - destruct m; cbn [gscan] in H.
    + destruct (negb esc && (d =? 0) && starts_with en (c :: s)) eqn:E.
      * apply andb_prop in E. destruct E as [_ E]. apply starts_with_spec in E. destruct E as [t Et].
        rewrite Et, strip_prefix_app in H. injection H as <- <-. exact Et.
      * destruct (negb (has_bytes (blen en) (c :: s))); [discriminate|].
        repeat match type of H with (if ?b then _ else _) = _ => destruct b end;
          apply gcons_found in H; destruct H as (a' & -> & H); apply IH in H; auto;
          cbn; f_equal; exact H.
    + apply gcons_found in H; destruct H as (a' & -> & H); apply IH in H; auto;
          cbn; f_equal; exact H.
    + apply gcons_found in H; destruct H as (a' & -> & H); apply IH in H; auto;
          cbn; f_equal; exact H.
Qed.

Lemma closing_not_nil : forall k, closing_str k <> [].
Proof. intros k. destruct (delims_good k) as (_ & H & _). exact H. Qed.

Lemma group_content_text : forall k s a r,
  group_content k s = (Ok a, r) -> s = a ++ closing_str k ++ r.
Proof. intros k s a r H. apply group_content_iff in H. exact (enclosed_text _ _ _ _ _ H). Qed.

Lemma group_content_suffix : forall k, leaves_suffix (group_content k).
Proof.
  intros k s. unfold group_content.
  destruct (gscan _ _ _ _ _ s) eqn:E; cbn; auto using suffix_nil, suffix_refl.
  apply gscan_text in E; [|apply closing_not_nil]. rewrite E, app_assoc. apply suffix_app.
Qed.

(** ** Text up to a suffix *)

Definition capp (p : str) (r : cres) : cres :=
  match r with CFound a b => CFound (p ++ a) b | _ => r end.

Lemma capp_cons : forall c p r, ccons c (capp p r) = capp (c :: p) r.
Proof. destruct r; reflexivity. Qed.

Lemma capp_nil : forall r, capp [] r = r.
Proof. destruct r; reflexivity. Qed.

Lemma ccons_found : forall c r a b, ccons c r = CFound a b ->
  exists a', a = c :: a' /\ r = CFound a' b.
Proof. destruct r; cbn; intros; try discriminate. injection H as <- <-. eauto. Qed.

Lemma cscan_skip : forall suf p esc s,
  cscan suf (cskip (length p)) esc (p ++ s) = capp p (cscan suf CNorm esc s).
Proof.
  induction p as [|c p IH]; intros.
  - cbn [length cskip app]. rewrite capp_nil. reflexivity.
  - cbn [length cskip app cscan]. replace (S (length p) - 1)%nat with (length p) by lia.
    rewrite IH, capp_cons. reflexivity.
Qed.

Lemma cscan_com : forall suf t esc s, ~ In 10 t ->
  cscan suf CCom esc (t ++ 10 :: s) = capp (t ++ [10]) (cscan suf CNorm esc s).
Proof.
  induction t as [|c t IH]; intros esc s H.
  - cbn. destruct (cscan suf CNorm esc s); reflexivity.
  - cbn [app cscan]. destruct (N.eqb_spec c 10) as [->|Hc].
    + exfalso. apply H. left. reflexivity.
    + rewrite IH; [|intros Hi; apply H; right; exact Hi].
      rewrite capp_cons. reflexivity.
Qed.

Lemma gscan_brace : forall s a r,
  gscan (opening_str GKNormal) (closing_str GKNormal) MNorm false 0 s = GFound a r <->
  s = a ++ 125 :: r /\ balanced 123 125 a.
Proof.
  intros s a r. rewrite <- (group_content_balanced GKNormal 123 125); [|left; auto].
  unfold group_content. destruct (gscan _ _ _ _ _ s); split; intros H; congruence.
Qed.

Lemma delimited_bytes : forall suf s a r, delimited suf s a r -> blen suf <= blen s.
Proof.
  induction 1; rewrite ?blen_app in *; cbn [blen] in *; rewrite ?blen_app in *; cbn [blen] in *; lia.
Qed.

Lemma delimited_text : forall suf s a r, delimited suf s a r -> s = a ++ suf ++ r.
Proof.
  induction 1; subst; cbn [app]; rewrite <- ?app_assoc; cbn [app]; rewrite <- ?app_assoc; cbn; reflexivity.
Qed.

Lemma cscan_delimited : forall suf, suf <> [] -> forall s a r, delimited suf s a r ->
  cscan suf CNorm false s = CFound a r.
Proof.
  intros suf Hs. induction 1 as
    [r | x s a r H1 H2 H3 Hp H IH | x s a r Hp H IH | t s a r Ht Hp H IH | g s a r Hg Hp H IH].
  - destruct suf as [|x suf]; [congruence|]. cbn [app cscan].
    rewrite (has_bytes_app (x :: suf) r : has_bytes (blen (x :: suf)) (x :: suf ++ r) = true).
    rewrite (starts_with_app (x :: suf) r : starts_with (x :: suf) (x :: suf ++ r) = true).
    rewrite (strip_prefix_app (x :: suf) r : strip_prefix (x :: suf) (x :: suf ++ r) = Some r).
    reflexivity.
  - apply starts_with_false in Hp. cbn [cscan].
    assert (Hb : has_bytes (blen suf) (x :: s) = true).
    { apply has_bytes_spec. apply delimited_bytes in H. cbn [blen]. lia. }
    rewrite Hb, Hp. cbn [negb].
    destruct (N.eqb_spec x 92); [congruence|]. destruct (N.eqb_spec x 37); [congruence|].
    destruct (N.eqb_spec x 123); [congruence|]. rewrite IH. reflexivity.
  - apply starts_with_false in Hp. cbn [cscan].
    assert (Hb : has_bytes (blen suf) (92 :: x :: s) = true).
    { apply has_bytes_spec. apply delimited_bytes in H. cbn [blen]. lia. }
    rewrite Hb, Hp. cbn [negb N.eqb Pos.eqb]. rewrite IH. reflexivity.
  - apply starts_with_false in Hp. cbn [cscan].
    assert (Hb : has_bytes (blen suf) (37 :: t ++ 10 :: s) = true).
    { apply has_bytes_spec. apply delimited_bytes in H. cbn [blen]. rewrite blen_app. cbn [blen]. lia. }
    rewrite Hb, Hp. cbn [negb N.eqb Pos.eqb]. rewrite cscan_com by assumption. rewrite IH, capp_cons.
    cbn. rewrite <- app_assoc. reflexivity.
  - apply starts_with_false in Hp. cbn [cscan].
    assert (Hb : has_bytes (blen suf) (123 :: g ++ 125 :: s) = true).
    { apply has_bytes_spec. apply delimited_bytes in H. cbn [blen]. rewrite blen_app. cbn [blen]. lia. }
    rewrite Hb, Hp. cbn [negb N.eqb Pos.eqb].
    rewrite (proj2 (gscan_brace (g ++ 125 :: s) g s)) by auto.
    replace (g ++ 125 :: s) with ((g ++ [125]) ++ s) by (rewrite <- app_assoc; reflexivity).
    replace (length g + 1)%nat with (length (g ++ [125])) by (rewrite app_length; reflexivity).
    rewrite cscan_skip, IH, capp_cons. cbn. rewrite <- app_assoc. reflexivity.
Qed.

Lemma cscan_com_inv : forall suf s esc a r, cscan suf CCom esc s = CFound a r ->
  exists t s' a', s = t ++ 10 :: s' /\ ~ In 10 t /\ a = t ++ 10 :: a' /\
    cscan suf CNorm esc s' = CFound a' r.
Proof.
  induction s as [|c s IH]; intros esc a r H; [discriminate|].
  cbn [cscan] in H. apply ccons_found in H. destruct H as (a' & -> & H).
  destruct (N.eqb_spec c 10) as [->|Hc].
  - exists [], s, a'. split; [reflexivity|]. split; [intros []|]. split; [reflexivity|exact H].
  - apply IH in H. destruct H as (t & s' & a2 & -> & Ht & -> & H).
    exists (c :: t), s', a2. split; [reflexivity|]. split; [|split; [reflexivity|exact H]].
    intros [E|Hi]; [congruence|]. auto.
Qed.

Lemma cscan_sound : forall suf, suf <> [] -> forall n s a r, (length s <= n)%nat ->
  cscan suf CNorm false s = CFound a r -> delimited suf s a r.
Proof.
  intros suf Hsuf. induction n as [|n IHn]; intros s a r Hlen H.
  - exfalso. destruct s; [|cbn in Hlen; lia]. cbn [cscan] in H.
    destruct (negb (has_bytes (blen suf) [])); [discriminate|].
    destruct suf; [congruence|discriminate].
  - destruct s as [|c s].
    { exfalso. cbn [cscan] in H. destruct (negb (has_bytes (blen suf) [])); [discriminate|].
      destruct suf; [congruence|discriminate]. }
    cbn in Hlen. cbn [cscan] in H.
    destruct (negb (has_bytes (blen suf) (c :: s))); [discriminate|].
    destruct (starts_with suf (c :: s)) eqn:Es.
    + apply starts_with_spec in Es. destruct Es as [t Et]. rewrite Et in *.
      rewrite strip_prefix_app in H. injection H as <- <-. constructor.
    + apply starts_with_false in Es.
      destruct (N.eqb_spec c 92) as [->|H92].
      * destruct s as [|x s]; [discriminate|]. cbn [cscan] in H.
        apply ccons_found in H. destruct H as (a' & -> & H).
        apply ccons_found in H. destruct H as (a2 & -> & H).
        apply del_escape; [exact Es|]. apply IHn; [cbn in Hlen; lia|exact H].
      * destruct (N.eqb_spec c 37) as [->|H37].
        { apply ccons_found in H. destruct H as (a' & -> & H).
          apply cscan_com_inv in H. destruct H as (t & s' & a2 & -> & Ht & -> & H).
          apply del_comment; [exact Ht|exact Es|]. apply IHn; [|exact H].
          rewrite app_length in Hlen. cbn in Hlen. lia. }
        destruct (N.eqb_spec c 123) as [->|H123].
        { destruct (gscan _ _ _ _ _ s) eqn:Eg; try discriminate.
          apply gscan_brace in Eg. destruct Eg as [-> Hb].
          apply ccons_found in H. destruct H as (a' & -> & H).
          replace (content ++ 125 :: rest) with ((content ++ [125]) ++ rest) in H
            by (rewrite <- app_assoc; reflexivity).
          replace (length content + 1)%nat with (length (content ++ [125])) in H
            by (rewrite app_length; reflexivity).
          rewrite cscan_skip in H. destruct (cscan suf CNorm false rest) eqn:Ec; try discriminate.
          cbn in H. injection H as <- <-. rewrite <- app_assoc. cbn [app].
          apply del_group; [exact Hb|exact Es|]. apply IHn; [|exact Ec].
          rewrite app_length in Hlen. cbn in Hlen. lia. }
        apply ccons_found in H. destruct H as (a' & -> & H).
        apply del_char; auto. apply IHn; [lia|exact H].
Qed.

Lemma content_with_suffix_iff : forall suf, suf <> [] -> forall s a r,
  content_with_suffix suf s = (Ok a, r) <-> delimited suf s a r.
Proof.
  intros suf Hs s a r. unfold content_with_suffix. split.
  - intros H. destruct (cscan suf CNorm false s) eqn:E; try discriminate.
    injection H as -> ->. eapply cscan_sound; eauto.
  - intros H. apply cscan_delimited in H; auto. rewrite H. reflexivity.
Qed.

(** The only panic is at the end of a text that ends with a backslash. *)
Lemma ccons_panic : forall c r, ccons c r = CIndexPanic -> r = CIndexPanic.
Proof. destruct r; cbn; congruence. Qed.

Lemma last_cons : forall (c : char) s d, s <> [] -> last (c :: s) d = last s d.
Proof. destruct s; [congruence|reflexivity]. Qed.

Lemma cscan_panic : forall suf, suf <> [] -> forall s m esc, (esc = true -> m = CNorm) ->
  cscan suf m esc s = CIndexPanic -> s <> [] /\ last s 0 = 92 \/ (s = [] /\ esc = true).
Proof.
  intros suf Hsuf. induction s as [|c s IH]; intros m esc Hm H.
  - destruct m; cbn [cscan] in H; try discriminate. destruct esc; [auto|].
    destruct (negb (has_bytes (blen suf) [])) eqn:E; [discriminate|].
    destruct suf as [|x suf]; [congruence|]. apply negb_false_iff in E. apply has_bytes_spec in E.
    cbn [blen] in E. pose proof (clen_pos x). lia.
  - left. split; [discriminate|].
    assert (Q : forall m', cscan suf m' false s = CIndexPanic -> last (c :: s) 0 = 92).
    { intros m' Hp. apply IH in Hp; [|discriminate]. destruct Hp as [[H1 H2]|[_ H1]]; [|discriminate].
      rewrite last_cons; auto. }
    destruct m; cbn [cscan] in H.
    + destruct esc; [apply ccons_panic in H; eauto|].
      destruct (negb (has_bytes (blen suf) (c :: s))); [discriminate|].
      destruct (starts_with suf (c :: s)); [discriminate|].
      destruct (N.eqb_spec c 92) as [->|].
      { apply ccons_panic in H. apply IH in H; [|auto]. destruct H as [[H1 H2]|[-> _]]; [|reflexivity].
        rewrite last_cons; auto. }
      destruct (c =? 37); [apply ccons_panic in H; eauto|].
      destruct (c =? 123); [|apply ccons_panic in H; eauto].
      destruct (gscan _ _ _ _ _ s); try discriminate. apply ccons_panic in H; eauto.
    + destruct esc; [specialize (Hm eq_refl); discriminate|]. apply ccons_panic in H; eauto.
    + destruct esc; [specialize (Hm eq_refl); discriminate|]. apply ccons_panic in H; eauto.
Qed.

Lemma content_with_suffix_panic : forall suf s p r, suf <> [] ->
  content_with_suffix suf s = (Panic p, r) -> p = PIndex /\ s <> [] /\ last s 0 = 92.
Proof.
  intros suf s p r Hs H. unfold content_with_suffix in H.
  destruct (cscan suf CNorm false s) eqn:E; try discriminate. injection H as <- <-.
  apply cscan_panic in E; auto. destruct E as [[H1 H2]|[_ H]]; [auto|discriminate].
Qed.

Lemma cscan_text : forall suf s m esc a r, suf <> [] ->
  cscan suf m esc s = CFound a r -> s = a ++ suf ++ r.
Proof.
  intros suf. induction s as [|c s IH]; intros m esc a r Hs H.
  - destruct m; cbn [cscan] in H; try discriminate. destruct esc; [discriminate|].
    destruct (negb (has_bytes (blen suf) [])) eqn:E; [discriminate|].
    destruct suf; [congruence|discriminate].
  - assert (Q : forall m' esc', ccons c (cscan suf m' esc' s) = CFound a r -> c :: s = a ++ suf ++ r).
    { intros m' esc' H'. apply ccons_found in H'. destruct H' as (a' & -> & H').
      cbn. f_equal. eapply IH; eauto. }
    destruct m; cbn [cscan] in H; [|eauto|eauto].
    destruct esc; [eauto|].
    destruct (negb (has_bytes (blen suf) (c :: s))); [discriminate|].
    destruct (starts_with suf (c :: s)) eqn:Es.
    + apply starts_with_spec in Es. destruct Es as [t Et]. rewrite Et in *.
      rewrite strip_prefix_app in H. injection H as <- <-. reflexivity.
    + destruct (c =? 92); [eauto|]. destruct (c =? 37); [eauto|].
      destruct (c =? 123); [|eauto]. destruct (gscan _ _ _ _ _ s); try discriminate. eauto.
Qed.

Lemma content_with_suffix_suffix : forall suf, suf <> [] -> leaves_suffix (content_with_suffix suf).
Proof.
  intros suf Hs s. unfold content_with_suffix.
  destruct (cscan suf CNorm false s) eqn:E; cbn; auto using suffix_nil, suffix_refl.
  apply cscan_text in E; auto. rewrite E, app_assoc. apply suffix_app.
Qed.

(** ** Tokens *)

Lemma skip_blank_com : forall t s, ~ In 10 t -> skip_blank true (t ++ 10 :: s) = skip_blank false s.
Proof.
  induction t as [|c t IH]; intros s H; [reflexivity|].
  cbn [app skip_blank]. destruct (N.eqb_spec c 10) as [->|]; [exfalso; apply H; left; reflexivity|].
  cbn. apply IH. intros Hi. apply H. right. exact Hi.
Qed.

Lemma skip_blank_app : forall b, blank b -> forall s, skip_blank false (b ++ s) = skip_blank false s.
Proof.
  induction 1 as [|c b Hc Hb IH|t b Ht Hb IH]; intros s; [reflexivity| |].
  - cbn [app skip_blank]. rewrite Hc. apply IH.
  - cbn [app skip_blank]. change (is_ws 37) with false. cbn [N.eqb Pos.eqb].
    rewrite <- app_assoc. cbn [app]. rewrite skip_blank_com by assumption. apply IH.
Qed.

Lemma skip_blank_suffix : forall s com, suffix (skip_blank com s) s.
Proof.
  induction s as [|c s IH]; intros com; [apply suffix_refl|]. cbn [skip_blank].
  destruct com; [apply suffix_cons, IH|].
  destruct (is_ws c); [apply suffix_cons, IH|]. destruct (c =? 37); [apply suffix_cons, IH|apply suffix_refl].
Qed.

Lemma skip_blank_head : forall s com c r, skip_blank com s = c :: r -> is_ws c = false /\ c <> 37.
Proof.
  induction s as [|x s IH]; intros com c r H; [discriminate|]. cbn [skip_blank] in H.
  destruct com; [eauto|]. destruct (is_ws x) eqn:Ew; [eauto|].
  destruct (N.eqb_spec x 37); [eauto|]. injection H as -> ->. auto.
Qed.

(** What is skipped before the first token: blank text. *)
Lemma skip_blank_sound : forall s com c r, skip_blank com s = c :: r ->
  exists p, s = p ++ c :: r /\
    (if com then exists t b, p = t ++ 10 :: b /\ ~ In 10 t /\ blank b else blank p).
Proof.
  induction s as [|x s IH]; intros com c r H; [discriminate|]. cbn [skip_blank] in H.
  destruct com.
  - apply IH in H. destruct H as (p & -> & H). destruct (N.eqb_spec x 10) as [->|Hx]; cbn [negb] in H.
    + exists (10 :: p). split; [reflexivity|]. exists [], p. auto.
    + destruct H as (t & b & -> & Ht & Hb). exists (x :: t ++ 10 :: b). split; [reflexivity|].
      exists (x :: t), b. split; [reflexivity|]. split; [|exact Hb]. intros [E|Hi]; [congruence|auto].
  - destruct (is_ws x) eqn:Ew.
    { apply IH in H. destruct H as (p & -> & H). exists (x :: p). split; [reflexivity|]. apply blank_ws; auto. }
    destruct (N.eqb_spec x 37) as [->|Hx].
    { apply IH in H. destruct H as (p & -> & t & b & -> & Ht & Hb). exists (37 :: t ++ 10 :: b).
      split; [reflexivity|]. apply blank_comment; auto. }
    injection H as -> ->. exists []. split; [reflexivity|]. constructor.
Qed.

Lemma rhs_cs_suffix : forall c s cs r, rhs_control_sequence (c :: s) = (Ok cs, r) ->
  cs <> [] /\ exists w, forallb is_ws w = true /\ c :: s = cs ++ w ++ r.
Proof.
  intros c s cs r H. cbn [rhs_control_sequence] in H. destruct (is_alpha c) eqn:Ea.
  - destruct (span_while is_alpha (c :: s)) as [a b] eqn:E. injection H as <- <-.
    pose proof (span_while_spec _ _ _ _ E) as (E1 & E2 & E3). split.
    + intros ->. cbn in E1. subst b. rewrite Ea in E3. discriminate.
    + destruct (trim_start_suffix b) as (w & Hw & Hf). exists w. split; [exact Hf|].
      rewrite <- Hw. exact E1.
  - injection H as <- <-. split; [discriminate|]. destruct (trim_start_suffix s) as (w & Hw & Hf).
    exists w. split; [exact Hf|]. cbn. rewrite <- Hw. reflexivity.
Qed.

Lemma rhs_cs_leaves : leaves_suffix rhs_control_sequence.
Proof.
  intros s. destruct s as [|c s]; [apply suffix_refl|]. cbn [rhs_control_sequence].
  destruct (is_alpha c).
  - destruct (span_while is_alpha (c :: s)) as [a b] eqn:E. cbn.
    pose proof (span_while_spec _ _ _ _ E) as (E1 & _). rewrite E1.
    eapply suffix_trans; [apply suffix_trim|apply suffix_app].
  - cbn. apply suffix_cons, suffix_trim.
Qed.

Lemma lex_token_suffix : leaves_suffix lex_token.
Proof.
  intros s. unfold lex_token. pose proof (skip_blank_suffix s false) as Hs.
  destruct (skip_blank false s) as [|c s'] eqn:E; [apply suffix_nil|].
  destruct (c =? 92).
  - pose proof (rhs_cs_leaves s') as H. destruct (rhs_control_sequence s') as [[?|?|?|] r]; cbn in *;
      (eapply suffix_trans; [apply suffix_cons; exact H|exact Hs]).
  - cbn. eapply suffix_trans; [apply suffix_cons, suffix_refl|exact Hs].
Qed.

Lemma lex_token_blank : forall b s, blank b -> lex_token (b ++ s) = lex_token s.
Proof. intros b s H. unfold lex_token. rewrite skip_blank_app by exact H. reflexivity. Qed.

Lemma lex_token_chr : forall s ctx r, lex_token s = (Ok (TChr ctx), r) ->
  exists b c, blank b /\ ctx = c :: r /\ s = b ++ c :: r /\ is_ws c = false /\ c <> 37 /\ c <> 92.
Proof.
  intros s ctx r H. unfold lex_token in H. destruct (skip_blank false s) as [|c s'] eqn:E; [discriminate|].
  destruct (N.eqb_spec c 92).
  { destruct (rhs_control_sequence s') as [[?|?|?|] ?]; discriminate. }
  injection H as <- <-. pose proof (skip_blank_head _ _ _ _ E) as [H1 H2].
  apply skip_blank_sound in E. destruct E as (p & -> & Hp). exists p, c. auto 10.
Qed.

Lemma lex_token_cs : forall s cs r, lex_token s = (Ok (TCs cs), r) ->
  exists b w, blank b /\ forallb is_ws w = true /\ cs <> [] /\ s = b ++ 92 :: cs ++ w ++ r.
Proof.
  intros s cs r H. unfold lex_token in H. destruct (skip_blank false s) as [|c s'] eqn:E; [discriminate|].
  destruct (N.eqb_spec c 92) as [->|]; [|discriminate].
  destruct (rhs_control_sequence s') as [[?|?|?|] ?] eqn:Er; try discriminate. injection H as -> ->.
  destruct s' as [|c s']; [discriminate|]. apply rhs_cs_suffix in Er. destruct Er as (Hc & w & Hw & Ew).
  apply skip_blank_sound in E. destruct E as (p & -> & Hp). exists p, w. rewrite Ew. auto.
Qed.

Lemma lex_token_no_panic : forall s,
  match fst (lex_token s) with Ok _ => True | Err e => e = EToken \/ e = EEmptyControlSequence
                             | _ => False end.
Proof.
  intros s. unfold lex_token. destruct (skip_blank false s) as [|c s']; [cbn; auto|].
  destruct (c =? 92); [|cbn; auto]. destruct s' as [|x s']; [cbn; auto|].
  cbn [rhs_control_sequence]. destruct (is_alpha x); [destruct (span_while is_alpha (x :: s'))|]; cbn; auto.
Qed.
