(** * FloatShow: the decimal written for an [f32] is one that reads back as it. *)

From Coq Require Import List NArith ZArith QArith Qpower Qabs Bool Lia Lqa Floats.SpecFloat.
From Verif Require Import Base Float32 FloatFacts Event SpecNum SpecDimension DisplayFacts.
Import ListNotations.
Open Scope Z_scope.

(** ** Digits as numbers *)

Definition num (ds : list Z) : Z := fold_left (fun z d => 10 * z + d) ds 0.

Lemma num_from : forall ds z, fold_left (fun z d => 10 * z + d) ds z = z * 10 ^ Z.of_nat (length ds) + num ds.
Proof.
  unfold num. induction ds as [|d ds IH]; intro z; [cbn; lia|]. cbn [fold_left length].
  rewrite IH, (IH (10 * 0 + d)). rewrite Nat2Z.inj_succ, Z.pow_succ_r by lia. ring.
Qed.

Lemma num_cons : forall d ds, num (d :: ds) = d * 10 ^ Z.of_nat (length ds) + num ds.
Proof. intros. unfold num at 1. cbn [fold_left]. rewrite num_from. f_equal. Qed.

Lemma num_app : forall a b, num (a ++ b) = num a * 10 ^ Z.of_nat (length b) + num b.
Proof. intros. unfold num at 1. rewrite fold_left_app. apply num_from. Qed.

(** ** Digit generation *)

Lemma pow10_pos : forall n, 0 <= n -> 0 < 10 ^ n.
Proof. intros. apply Z.pow_pos_nonneg; lia. Qed.

Lemma gen_spec : forall fuel incl mant minus plus scale, 0 < scale -> 0 <= mant -> 0 < minus -> 0 < plus ->
  scale < minus * 10 ^ Z.of_nat fuel ->
  let (ds, up) := gen_digits (S fuel) incl mant minus plus scale in
  ds <> [] /\ let p := 10 ^ (Z.of_nat (length ds) - 1) in
  num ds * scale <= mant * p < (num ds + 1) * scale /\
  (if up : bool then (num ds + 1) * scale <= (mant + plus) * p else (mant - minus) * p <= num ds * scale).
Proof.
  induction fuel as [|f IH]; intros incl mant minus plus scale Hs Hm H1 H2 Hf.
  - cbn [gen_digits]. pose proof (Z.mod_pos_bound mant scale Hs) as Hr.
    assert (E : (if incl then mant mod scale <=? minus else mant mod scale <? minus) = true).
    { cbn in Hf. destruct incl; [apply Z.leb_le|apply Z.ltb_lt]; lia. }
    rewrite E. cbn [orb negb andb]. split; [discriminate|]. cbn -[Z.mul Z.div Z.modulo Z.add].
    pose proof (Z.div_mod mant scale ltac:(lia)) as Hd. unfold num. cbn [fold_left].
    set (d := mant / scale) in *. set (m := mant mod scale) in *. clearbody d m.
    split; [nia|]. destruct ((if incl then scale <=? m + plus else scale <? m + plus) && (scale <=? 2 * m)) eqn:Eu.
    + apply andb_true_iff in Eu as [Eu _]. assert (scale <= m + plus) by (destruct incl; [apply Z.leb_le in Eu|apply Z.ltb_lt in Eu]; lia). nia.
    + assert (m <= minus) by (cbn in Hf; lia). nia.
  - change (gen_digits (S (S f)) incl mant minus plus scale) with
      (let d := mant / scale in let m := mant mod scale in
       let down := if incl then m <=? minus else m <? minus in
       let up := if incl then scale <=? m + plus else scale <? m + plus in
       if down || up then ([d], up && (negb down || (scale <=? 2 * m)))
       else let (ds, r) := gen_digits (S f) incl (10 * m) (10 * minus) (10 * plus) scale in (d :: ds, r)).
    cbv zeta. pose proof (Z.mod_pos_bound mant scale Hs) as Hr. pose proof (Z.div_mod mant scale ltac:(lia)) as Hd.
    set (d := mant / scale) in *. set (m := mant mod scale) in *. clearbody d m.
    destruct ((if incl then m <=? minus else m <? minus) || (if incl then scale <=? m + plus else scale <? m + plus)) eqn:E.
    + split; [discriminate|]. cbn [length]. change (10 ^ (Z.of_nat 1 - 1)) with 1. unfold num. cbn [fold_left]. split; [nia|].
      destruct (if incl then m <=? minus else m <? minus) eqn:Ed.
      * assert (m <= minus) by (destruct incl; [apply Z.leb_le in Ed|apply Z.ltb_lt in Ed]; lia).
        destruct (if incl then scale <=? m + plus else scale <? m + plus) eqn:Eu; cbn [andb orb negb].
        -- assert (scale <= m + plus) by (destruct incl; [apply Z.leb_le in Eu|apply Z.ltb_lt in Eu]; lia).
           destruct (scale <=? 2 * m); nia.
        -- nia.
      * cbn [orb] in E. rewrite E. cbn [andb orb negb].
        assert (scale <= m + plus) by (destruct incl; [apply Z.leb_le in E|apply Z.ltb_lt in E]; lia). nia.
    + apply orb_false_iff in E as [Ed Eu].
      specialize (IH incl (10 * m) (10 * minus) (10 * plus) scale Hs ltac:(lia) ltac:(lia) ltac:(lia)).
      rewrite Nat2Z.inj_succ, Z.pow_succ_r in Hf by lia. specialize (IH ltac:(lia)).
      destruct (gen_digits (S f) incl (10 * m) (10 * minus) (10 * plus) scale) as [ds up]. destruct IH as (I1 & I2 & I3).
      split; [discriminate|]. rewrite num_cons. cbn [length]. replace (Z.of_nat (S (length ds)) - 1) with (Z.of_nat (length ds)) by lia.
      assert (El : exists l, Z.of_nat (length ds) = l + 1 /\ 0 <= l).
      { exists (Z.of_nat (length ds) - 1). destruct ds; [congruence|]. cbn [length]. lia. }
      destruct El as (l & El & Hl). rewrite El in *. replace (l + 1 - 1) with l in * by lia. rewrite Z.pow_add_r by lia. change (10 ^ 1) with 10.
      pose proof (pow10_pos l Hl). set (p := 10 ^ l) in *. clearbody p. set (D := num ds) in *. clearbody D. subst mant.
      split; [nia|]. destruct up; nia.
Qed.

(** ** Rounding up *)

Fixpoint lnum (ds : list Z) : Z := match ds with [] => 0 | d :: r => d + 10 * lnum r end.

Lemma lnum_rev : forall ds, lnum (rev ds) = num ds.
Proof.
  assert (A : forall a b, lnum (a ++ b) = lnum a + 10 ^ Z.of_nat (length a) * lnum b).
  { induction a as [|d a IH]; intro b; [cbn; destruct (lnum b); reflexivity|]. cbn [app lnum length]. rewrite IH, Nat2Z.inj_succ, Z.pow_succ_r by lia. ring. }
  induction ds as [|d ds IH]; [reflexivity|]. cbn [rev]. rewrite A, IH, num_cons, rev_length. cbn [lnum]. ring.
Qed.

Lemma incr_spec : forall ds, let (r, c) := incr_rev ds in length r = length ds /\ lnum r + (if c : bool then 10 ^ Z.of_nat (length ds) else 0) = lnum ds + 1.
Proof.
  induction ds as [|d ds IH]; [cbn; auto|]. cbn [incr_rev]. destruct (Z.eqb_spec d 9) as [->|Hn].
  - destruct (incr_rev ds) as [r c]. destruct IH as [I1 I2]. cbn [length lnum]. split; [congruence|].
    rewrite Nat2Z.inj_succ, Z.pow_succ_r by lia. destruct c; lia.
  - cbn [length lnum]. split; [reflexivity|lia].
Qed.

(** ** The scaling *)

Open Scope Q_scope.

Notation ten := (10 # 1). Notation two := (2 # 1).
Lemma ten_pos : forall k, 0 < ten ^ k.
Proof. intro k. apply Qpower_0_lt. reflexivity. Qed.
Lemma two_pos : forall k, 0 < two ^ k.
Proof. intro k. apply Qpower_0_lt. reflexivity. Qed.
Lemma ten_Z : forall k, (0 <= k)%Z -> inject_Z (10 ^ k) == ten ^ k.
Proof. intros k H. exact (Zpower_Qpower 10 k H). Qed.
Lemma two_Z : forall k, (0 <= k)%Z -> inject_Z (2 ^ k) == two ^ k.
Proof. intros k H. exact (Zpower_Qpower 2 k H). Qed.
Lemma ten_add : forall a b, ten ^ (a + b) == ten ^ a * ten ^ b.
Proof. intros. apply Qpower_plus. discriminate. Qed.
Lemma two_add : forall a b, two ^ (a + b) == two ^ a * two ^ b.
Proof. intros. apply Qpower_plus. discriminate. Qed.

Lemma inject_mul : forall a b, inject_Z (a * b) == inject_Z a * inject_Z b.
Proof. intros. now rewrite inject_Z_mult. Qed.

(** [h / s] is [hi / scale * 10^-k]. *)
Definition scaled (hi scale k : Z) : Z * Z := (if 0 <=? k then (hi, scale * 10 ^ k) else (hi * 10 ^ (- k), scale))%Z.

Lemma find_low : forall fuel incl hi scale k, (0 < hi -> 0 < scale ->
  let k' := find_k fuel incl hi scale k in
  k' = k \/ snd (scaled hi scale (k' - 1)) <= fst (scaled hi scale (k' - 1)))%Z.
Proof.
  induction fuel as [|f IH]; intros incl hi scale k Hh Hs; cbn [find_k]; [left; reflexivity|].
  fold (scaled hi scale k). destruct (scaled hi scale k) as [h s] eqn:E.
  destruct (if incl then (s <=? h)%Z else (s <? h)%Z) eqn:C; [|left; reflexivity].
  right. destruct (IH incl hi scale (k + 1)%Z Hh Hs) as [->|H]; [|exact H].
  replace (k + 1 - 1)%Z with k by lia. rewrite E. cbn [fst snd]. destruct incl; [apply Z.leb_le in C|apply Z.ltb_lt in C]; lia.
Qed.

Lemma scaled_Q : forall h s k, let (a, b) := scaled h s k in inject_Z a * ten ^ k * inject_Z s == inject_Z h * inject_Z b.
Proof.
  intros h s k. unfold scaled. destruct (Z.leb_spec 0 k).
  - rewrite inject_mul, ten_Z by exact H. ring.
  - rewrite inject_mul, ten_Z by lia. assert (E : ten ^ (- k) * ten ^ k == 1) by (rewrite <- ten_add; replace (- k + k)%Z with 0%Z by lia; reflexivity).
    transitivity (inject_Z h * (ten ^ (- k) * ten ^ k) * inject_Z s); [ring|]. rewrite E. ring.
Qed.

(** The bounds of the rounding interval. *)
Definition below (m : positive) (e : Z) : Q := if (Zpos m =? 2 ^ 23)%Z then two ^ (e - 2) else two ^ (e - 1).

Lemma Q_of_le : forall a b, (a <= b)%Z -> inject_Z a <= inject_Z b.
Proof. intros. now rewrite <- Zle_Qle. Qed.

Lemma shortest_spec : forall m e, (Zpos m < 2 ^ 24)%Z -> (-149 <= e <= 104)%Z ->
  let (ds, k) := shortest m e in
  ds <> [] /\ let q := inject_Z (num ds) * ten ^ (k - Z.of_nat (length ds)) in let v := inject_Z (Zpos m) * two ^ e in
  v - below m e <= q <= v + two ^ (e - 1).
Proof.
  intros m e Hm He. unfold shortest.
  assert (Hpre : exists mant minus plus ex,
    (if (Zpos m =? 2 ^ 23)%Z then (4 * Zpos m, 1, 2, e - 2)%Z else (2 * Zpos m, 1, 1, e - 1)%Z) = (mant, minus, plus, ex)
    /\ (0 < mant <= 2 ^ 26 /\ minus = 1 /\ 0 < plus <= 2 /\ -151 <= ex <= 104)%Z
    /\ inject_Z mant * two ^ ex == inject_Z (Zpos m) * two ^ e /\ two ^ ex == below m e /\ inject_Z plus * two ^ ex == two ^ (e - 1)).
  { unfold below. destruct (Zpos m =? 2 ^ 23)%Z; eexists _, _, _, _; (split; [reflexivity|]); (split; [repeat split; lia|]).
    - split; [|split; [reflexivity|]].
      + rewrite inject_mul. replace e with (e - 2 + 2)%Z at 2 by lia. rewrite two_add. change (two ^ 2) with (4 # 1). change (inject_Z 4) with (4 # 1). ring.
      + replace (e - 1)%Z with (e - 2 + 1)%Z by lia. rewrite two_add. change (two ^ 1) with two. change (inject_Z 2) with two. ring.
    - split; [|split; [reflexivity|]].
      + rewrite inject_mul. replace e with (e - 1 + 1)%Z at 2 by lia. rewrite two_add. change (two ^ 1) with two. change (inject_Z 2) with two. ring.
      + change (inject_Z 1) with 1. ring. }
  destruct Hpre as (mant & minus & plus & ex & -> & (H1 & -> & H3 & H4) & V1 & V2 & V3).
  assert (Hsc : exists mant' minus' plus' scale,
    (if (ex <? 0)%Z then (mant, 1, plus, 2 ^ (- ex))%Z else (mant * 2 ^ ex, 1 * 2 ^ ex, plus * 2 ^ ex, 1)%Z) = (mant', minus', plus', scale)
    /\ (0 < mant' <= 2 ^ 130 /\ 0 < minus' /\ 0 < plus' <= 2 ^ 130 /\ 0 < scale <= 2 ^ 151 /\ mant' + plus' <= (2 ^ 26 + 2) * minus')%Z
    /\ inject_Z mant' == inject_Z (Zpos m) * two ^ e * inject_Z scale /\ inject_Z minus' == below m e * inject_Z scale /\ inject_Z plus' == two ^ (e - 1) * inject_Z scale).
  { destruct (Z.ltb_spec ex 0); eexists _, _, _, _; (split; [reflexivity|]).
    - assert (0 < 2 ^ (- ex) <= 2 ^ 151)%Z by (split; [apply Z.pow_pos_nonneg; lia|apply Z.pow_le_mono_r; lia]).
      assert (2 ^ 26 <= 2 ^ 130)%Z by (apply Z.pow_le_mono_r; lia). assert (2 <= 2 ^ 26)%Z by (vm_compute; congruence). split; [lia|].
      assert (E : two ^ ex * inject_Z (2 ^ (- ex)) == 1).
      { rewrite two_Z by lia. rewrite <- two_add. replace (ex + - ex)%Z with 0%Z by lia. reflexivity. }
      rewrite <- V1, <- V2, <- V3. rewrite E. split; [|split; [reflexivity|]].
      + transitivity (inject_Z mant * (two ^ ex * inject_Z (2 ^ (- ex)))); [rewrite E; ring|ring].
      + transitivity (inject_Z plus * (two ^ ex * inject_Z (2 ^ (- ex)))); [rewrite E; ring|ring].
    - assert (Hp : (0 < 2 ^ ex <= 2 ^ 104)%Z) by (split; [apply Z.pow_pos_nonneg; lia|apply Z.pow_le_mono_r; lia]).
      assert (E : (2 ^ 130 = 2 ^ 26 * 2 ^ 104)%Z) by reflexivity.
      assert (2 <= 2 ^ 26)%Z by (vm_compute; congruence). split; [repeat split; try lia; try nia; vm_compute; congruence|].
      change (inject_Z 1) with 1. rewrite <- V1, <- V2, <- V3. rewrite !inject_mul, two_Z by lia. change (inject_Z 1) with 1. repeat split; ring. }
  destruct Hsc as (mant' & minus' & plus' & scale & -> & (H5 & H6 & H7 & H8 & H9) & W1 & W2 & W3). clear H1 H3 V1 V2 V3.
  set (incl := Z.even (Zpos m)). set (hi := (mant' + plus')%Z).
  destruct (find_k_spec 120 incl hi scale (-60) ltac:(unfold hi; lia) ltac:(lia) ltac:(lia) ltac:(cbn; lia)) as [K1 K2].
  pose proof (find_low 120 incl hi scale (-60) ltac:(unfold hi; lia) ltac:(lia)) as K3.
  set (k := find_k 120 incl hi scale (-60)) in *. clearbody k. change (Z.of_nat 120) with 120%Z in *.
  assert (K4 : (snd (scaled hi scale (k - 1)) <= fst (scaled hi scale (k - 1)))%Z).
  { destruct K3 as [->|K3]; [|exact K3]. unfold scaled. change (0 <=? -60 - 1)%Z with false. cbv iota. cbn [fst snd].
    assert (2 ^ 151 <= 10 ^ (- (-60 - 1)))%Z by (vm_compute; congruence). unfold hi. nia. }
  clear K3 K2.
  assert (Hg : exists a b c d,
    (if (0 <=? k)%Z then (mant', minus', plus', scale * 10 ^ k)%Z
     else (mant' * 10 ^ (- k), minus' * 10 ^ (- k), plus' * 10 ^ (- k), scale)%Z) = (a, b, c, d)
    /\ (0 < a /\ 0 < b /\ 0 < c /\ 0 < d /\ d <= 10 * (a + c) /\ a + c <= (2 ^ 26 + 2) * b)%Z
    /\ inject_Z a * ten ^ k == inject_Z (Zpos m) * two ^ e * inject_Z d /\ inject_Z b * ten ^ k == below m e * inject_Z d /\ inject_Z c * ten ^ k == two ^ (e - 1) * inject_Z d).
  { revert K4. unfold scaled. destruct (Z.leb_spec 0 k) as [Hk|Hk].
    - assert (P : (0 < 10 ^ k)%Z) by (apply Z.pow_pos_nonneg; lia). intro K4. eexists _, _, _, _; (split; [reflexivity|]). split.
      + repeat split; try lia; try nia. destruct (Z.leb_spec 0 (k - 1)); cbn [fst snd] in K4.
        * replace k with (k - 1 + 1)%Z by lia. rewrite Z.pow_add_r by lia. change (10 ^ 1)%Z with 10%Z. unfold hi in K4. nia.
        * assert (k = 0)%Z by lia. subst k. change (10 ^ (- (0 - 1)))%Z with 10%Z in K4. change (10 ^ 0)%Z with 1%Z. unfold hi in K4. lia.
      + rewrite inject_mul, ten_Z by exact Hk. rewrite W1, W2, W3. repeat split; ring.
    - assert (P : (0 < 10 ^ (- k))%Z) by (apply Z.pow_pos_nonneg; lia). destruct (Z.leb_spec 0 (k - 1)); [lia|]. cbn [fst snd].
      replace (- (k - 1))%Z with (- k + 1)%Z by lia. rewrite Z.pow_add_r by lia. change (10 ^ 1)%Z with 10%Z. intro K4.
      eexists _, _, _, _; (split; [reflexivity|]). split.
      + set (p := (10 ^ (- k))%Z) in *. clearbody p. unfold hi in K4. repeat split; try lia; try nia.
      + assert (E : ten ^ (- k) * ten ^ k == 1) by (rewrite <- ten_add; replace (- k + k)%Z with 0%Z by lia; reflexivity).
        rewrite !inject_mul, ten_Z by lia. rewrite <- W1, <- W2, <- W3. repeat split.
        * transitivity (inject_Z mant' * (ten ^ (- k) * ten ^ k)); [ring|rewrite E; ring].
        * transitivity (inject_Z minus' * (ten ^ (- k) * ten ^ k)); [ring|rewrite E; ring].
        * transitivity (inject_Z plus' * (ten ^ (- k) * ten ^ k)); [ring|rewrite E; ring]. }
  destruct Hg as (a & b & c & d & -> & (G1 & G2 & G3 & G4 & G5 & G6) & Ea & Eb & Ec).
  clear - G1 G2 G3 G4 G5 G6 Ea Eb Ec. set (v := inject_Z (Zpos m) * two ^ e) in *. clearbody v. set (lo := below m e) in *. clearbody lo. set (up' := two ^ (e - 1)) in *. clearbody up'.
  pose proof (gen_spec 19 incl (10 * a) (10 * b) (10 * c) d G4 ltac:(lia) ltac:(lia) ltac:(lia)) as Hs.
  assert (F : (d < 10 * b * 10 ^ Z.of_nat 19)%Z) by (change (10 ^ Z.of_nat 19)%Z with 10000000000000000000%Z; lia). specialize (Hs F). clear F.
  destruct (gen_digits 20 incl (10 * a) (10 * b) (10 * c) d) as [ds up]. destruct Hs as (D1 & D2 & D3).
  assert (El : exists l, Z.of_nat (length ds) = (l + 1)%Z /\ (0 <= l)%Z).
  { exists (Z.of_nat (length ds) - 1)%Z. destruct ds; [congruence|]. cbn [length]. lia. }
  destruct El as (l & El & Hl). rewrite El in D2, D3. replace (l + 1 - 1)%Z with l in * by lia.
  assert (Ep : inject_Z (10 * 10 ^ l) * ten ^ (k - (l + 1)) == ten ^ k).
  { rewrite <- Z.pow_succ_r by lia. rewrite ten_Z by lia. rewrite <- ten_add. replace (Z.succ l + (k - (l + 1)))%Z with k by lia. reflexivity. }
  assert (Pt : 0 < ten ^ (k - (l + 1))) by apply ten_pos. set (t := ten ^ (k - (l + 1))) in *.
  assert (Pd : 0 < inject_Z d) by (change 0 with (inject_Z 0); rewrite <- Zlt_Qlt; exact G4).
  assert (B : forall x y, inject_Z x * ten ^ k == y * inject_Z d -> forall z, (((10 * x) * 10 ^ l <= z * d)%Z -> y <= inject_Z z * t) /\ ((z * d <= (10 * x) * 10 ^ l)%Z -> inject_Z z * t <= y)).
  { intros x y E z. rewrite <- Ep in E. replace (10 * x * 10 ^ l)%Z with (x * (10 * 10 ^ l))%Z by ring. set (w := (10 * 10 ^ l)%Z) in *. clearbody w t.
    split; intro H; apply Q_of_le in H; rewrite !inject_mul in H; apply (Qmult_le_r _ _ (inject_Z d) Pd).
    - rewrite <- E. setoid_replace (inject_Z x * (inject_Z w * t)) with (inject_Z x * inject_Z w * t) by ring.
      setoid_replace (inject_Z z * t * inject_Z d) with (inject_Z z * inject_Z d * t) by ring. now apply (Qmult_le_r _ _ t Pt).
    - rewrite <- E. setoid_replace (inject_Z x * (inject_Z w * t)) with (inject_Z x * inject_Z w * t) by ring.
      setoid_replace (inject_Z z * t * inject_Z d) with (inject_Z z * inject_Z d * t) by ring. now apply (Qmult_le_r _ _ t Pt). }
  assert (Eab : inject_Z (a - b) * ten ^ k == (v - lo) * inject_Z d) by (unfold Z.sub; rewrite inject_Z_plus, inject_Z_opp, Qmult_plus_distr_l; setoid_replace (- inject_Z b * ten ^ k) with (- (inject_Z b * ten ^ k)) by ring; rewrite Ea, Eb; ring).
  assert (Eac : inject_Z (a + c) * ten ^ k == (v + up') * inject_Z d) by (rewrite inject_Z_plus, Qmult_plus_distr_l, Ea, Ec; ring).
  assert (Plo : 0 <= up') .
  { apply (Qmult_le_r _ _ (inject_Z d) Pd). rewrite <- Ec, Qmult_0_l. apply Qmult_le_0_compat; [change 0 with (inject_Z 0); apply Q_of_le; lia|apply Qlt_le_weak, ten_pos]. }
  assert (Pll : 0 <= lo) .
  { apply (Qmult_le_r _ _ (inject_Z d) Pd). rewrite <- Eb, Qmult_0_l. apply Qmult_le_0_compat; [change 0 with (inject_Z 0); apply Q_of_le; lia|apply Qlt_le_weak, ten_pos]. }
  destruct up.
  - pose proof (incr_spec (rev ds)) as Hi. destruct (incr_rev (rev ds)) as [r cc]. destruct Hi as [Hi1 Hi2]. rewrite lnum_rev, rev_length in *.
    assert (Q1 : v <= inject_Z (num ds + 1) * t) by (apply (B a v Ea); lia).
    assert (Q2 : inject_Z (num ds + 1) * t <= v + up') by (apply (B (a + c)%Z (v + up') Eac); lia).
    assert (En : num (rev r) = lnum r) by (rewrite <- (rev_involutive r) at 2; apply eq_sym, lnum_rev).
    destruct cc.
    + split; [discriminate|]. cbn [length]. rewrite num_cons, rev_length, Hi1, En. rewrite Z.mul_1_l, Z.add_comm, Hi2.
      replace (k + 1 - Z.of_nat (S (length ds)))%Z with (k - (l + 1))%Z by lia. fold t. clearbody t. split; lra.
    + rewrite Z.add_0_r in Hi2. split; [intro N; apply (f_equal (@length Z)) in N; rewrite rev_length, Hi1 in N; destruct ds; [congruence|discriminate]|].
      rewrite rev_length, Hi1, En, Hi2, El. fold t. clearbody t. split; lra.
  - split; [exact D1|]. rewrite El. fold t.
    assert (Q1 : inject_Z (num ds) * t <= v) by (apply (B a v Ea); lia).
    assert (Q2 : v - lo <= inject_Z (num ds) * t) by (apply (B (a - b)%Z (v - lo) Eab); lia).
    clearbody t. split; lra.
Qed.

(** ** The text *)

Lemma decimal_chars : forall ds, digits_ok ds -> decimal_of (map digit_char ds) = num ds.
Proof.
  intros ds H. unfold decimal_of, num. generalize 0%Z. induction H as [|d ds Hd _ IH]; intro z; [reflexivity|]. cbn [map fold_left].
  rewrite IH. f_equal. unfold digit_char. rewrite Z2N.id by lia. lia.
Qed.

Lemma digits_chars : forall ds, digits_ok ds -> digits (map digit_char ds).
Proof. intros ds H. unfold digits. apply Forall_map. eapply Forall_impl; [|exact H]. cbn. intros d Hd. unfold digit, digit_char. split; lia. Qed.

Lemma zeros_digits : forall n, digits_ok (repeat 0%Z n).
Proof. induction n; constructor; [lia|assumption]. Qed.

Lemma zeros_num : forall n, num (repeat 0%Z n) = 0%Z.
Proof. induction n; [reflexivity|]. cbn [repeat]. rewrite num_cons, IHn. lia. Qed.

Lemma zeros_chars : forall n, repeat 48%N n = map digit_char (repeat 0%Z n).
Proof. induction n; [reflexivity|]. cbn [repeat map]. now rewrite IHn. Qed.

Lemma ten_sub : forall x y, ten ^ (x - y) == ten ^ x * ten ^ (- y).
Proof. intros. unfold Z.sub. apply ten_add. Qed.

Lemma dec_value : forall ds k, digits_ok ds -> ds <> [] ->
  exists q, unsigned (dec_str ds k) q /\ q == inject_Z (num ds) * ten ^ (k - Z.of_nat (length ds)).
Proof.
  intros ds k H Hn. unfold dec_str. destruct (Z.leb_spec k 0) as [Hk|Hk]; [|destruct (Z.ltb_spec k (Z.of_nat (length ds))) as [Hl|Hl]].
  - rewrite zeros_chars. rewrite <- map_app. change (lit "0.") with ([48] ++ [46])%N. rewrite <- app_assoc.
    set (b := (repeat 0%Z (Z.to_nat (- k)) ++ ds)%list).
    assert (Hb : digits_ok b) by (apply Forall_app; split; [apply zeros_digits|exact H]).
    eexists. split.
    + apply (U_fraction [48]%N (map digit_char b)); [discriminate| |repeat constructor; unfold digit; lia|apply digits_chars, Hb].
      intro N. apply map_eq_nil in N. apply app_eq_nil in N as [_ N]. contradiction.
    + change ([48]%N ++ map digit_char b)%list with (map digit_char (0%Z :: b)).
      rewrite decimal_chars by (constructor; [lia|exact Hb]). rewrite num_cons. unfold b. rewrite num_app, zeros_num, map_length, app_length, repeat_length.
      rewrite !Z.mul_0_l, !Z.add_0_l. replace (- Z.of_nat (Z.to_nat (- k) + length ds))%Z with (k - Z.of_nat (length ds))%Z by lia. reflexivity.
  - eexists. split.
    + apply U_fraction.
      * intro N. apply (f_equal (@length _)) in N. rewrite firstn_length, map_length in N. cbn in N. lia.
      * intro N. apply (f_equal (@length _)) in N. rewrite skipn_length, map_length in N. cbn in N. lia.
      * rewrite firstn_map. apply digits_chars. apply Forall_forall. intros x Hx. apply (proj1 (Forall_forall _ _) H). rewrite <- (firstn_skipn (Z.to_nat k) ds). apply in_or_app. auto.
      * rewrite skipn_map. apply digits_chars. apply Forall_forall. intros x Hx. apply (proj1 (Forall_forall _ _) H). rewrite <- (firstn_skipn (Z.to_nat k) ds). apply in_or_app. auto.
    + rewrite firstn_skipn, decimal_chars by exact H. rewrite skipn_length, map_length.
      replace (- Z.of_nat (length ds - Z.to_nat k))%Z with (k - Z.of_nat (length ds))%Z by lia. reflexivity.
  - rewrite zeros_chars, <- map_app. set (b := (ds ++ repeat 0%Z (Z.to_nat (k - Z.of_nat (length ds))))%list).
    assert (Hb : digits_ok b) by (apply Forall_app; split; [exact H|apply zeros_digits]).
    eexists. split.
    + apply U_integer; [|apply digits_chars, Hb]. intro N. apply map_eq_nil in N. apply app_eq_nil in N as [N _]. contradiction.
    + rewrite decimal_chars by exact Hb. unfold b. rewrite num_app, zeros_num, repeat_length, Z.add_0_r, inject_mul, ten_Z by lia.
      rewrite Z2Nat.id by lia. reflexivity.
Qed.

(** The text of a number is a decimal near to it. *)
Definition half_below (x : f32) : Q := match x with S754_finite _ m e => below m e | _ => 0 end.
Definition half_above (x : f32) : Q := match x with S754_finite _ m e => two ^ (e - 1) | _ => 0 end.

Definition near (x : f32) (q : Q) : Prop :=
  match x with
  | S754_finite s m e => let v := inject_Z (Zpos m) * two ^ e in let q' := signed s q in v - below m e <= q' <= v + two ^ (e - 1)
  | _ => q == 0
  end.

Lemma near_eq : forall x p q, p == q -> near x p -> near x q.
Proof. intros [s|s| |s m e] p q E; cbn; try (now rewrite <- E). destruct s; cbn; rewrite <- E; auto. Qed.

Lemma display_near : forall x, finite x -> exists q, decimal (f32_display x) q /\ near x q.
Proof.
  intros [s|s| |s m e] H; try contradiction.
  - exists (signed s (inject_Z (decimal_of [48%N]))). split; [|destruct s; reflexivity].
    destruct s; [apply (D_minus [48%N])|apply (D_plus [48%N])]; apply U_integer; try discriminate; repeat constructor; unfold digit; lia.
  - cbn [finite] in H. destruct H as (H1 & H2 & _). cbn [f32_display].
    pose proof (shortest_spec m e H1 H2) as Hs. pose proof (shortest_ok m e ltac:(lia) ltac:(lia)) as Hd.
    destruct (shortest m e) as [ds k]. cbn [fst] in Hd. destruct Hs as [Hn Hs].
    destruct (dec_value ds k Hd Hn) as (q & Hq & Eq). exists (signed s q). split.
    + destruct s; [apply D_minus|apply D_plus]; exact Hq.
    + cbn [near]. cbv zeta in Hs. rewrite <- Eq in Hs. cbv zeta. destruct s; cbn [signed]; [rewrite Qopp_involutive|]; exact Hs.
Qed.

(** ** No other number is nearer *)

Lemma Z_times : forall e n t, (0 <= n)%Z -> inject_Z t * two ^ (e + n) == inject_Z (t * 2 ^ n) * two ^ e.
Proof. intros. rewrite two_add, inject_mul, two_Z by assumption. ring. Qed.

Lemma two_below : forall m e, two * below m e == if (Zpos m =? 2 ^ 23)%Z then two ^ (e - 1) else two ^ e.
Proof.
  intros m e. unfold below. destruct (Zpos m =? 2 ^ 23)%Z; change two with (two ^ 1) at 1; rewrite <- two_add.
  - replace (1 + (e - 2))%Z with (e - 1)%Z by lia. reflexivity.
  - replace (1 + (e - 1))%Z with e by lia. reflexivity.
Qed.

Lemma step_Q : forall a b t, 0 < t -> (a < b)%Z -> inject_Z a * t + t <= inject_Z b * t.
Proof.
  intros a b t Ht H. assert (L : inject_Z (a + 1) <= inject_Z b) by (apply Q_of_le; lia). rewrite inject_Z_plus in L. change (inject_Z 1) with 1 in L. nra.
Qed.

Lemma spacing : forall m e m' e', finite (S754_finite false m e) -> finite (S754_finite false m' e') ->
  let v := inject_Z (Zpos m) * two ^ e in let v' := inject_Z (Zpos m') * two ^ e' in
  v' == v \/ v + two ^ e <= v' \/ v' <= v - two * below m e.
Proof.
  intros m e m' e' (H1 & H2 & H3) (H4 & H5 & H6). cbv zeta. rewrite two_below. destruct (Z_lt_le_dec e' e) as [Hl|Hl].
  - right; right. destruct H3 as [H3|H3]; [|lia].
    replace e with (e' + (e - e'))%Z by lia. replace (e' + (e - e') - 1)%Z with (e' + (e - e' - 1))%Z by lia.
    set (n := (e - e')%Z). assert (Hn : (1 <= n)%Z) by (unfold n; lia). clearbody n. pose proof (two_pos e') as Pt. rewrite !Z_times by lia.
    assert (E1 : two ^ (e' + n) == inject_Z (1 * 2 ^ n) * two ^ e') by (rewrite <- Z_times by lia; change (inject_Z 1) with 1; ring).
    assert (E2 : two ^ (e' + (n - 1)) == inject_Z (1 * 2 ^ (n - 1)) * two ^ e') by (rewrite <- Z_times by lia; change (inject_Z 1) with 1; ring).
    assert (Ep : (2 ^ n = 2 * 2 ^ (n - 1))%Z) by (rewrite <- Z.pow_succ_r by lia; f_equal; lia).
    assert (Pp : (1 <= 2 ^ (n - 1))%Z) by (apply (Z.pow_le_mono_r 2 0 (n - 1)); lia). rewrite Ep in *. set (p := (2 ^ (n - 1))%Z) in *. clearbody p. set (t := two ^ e') in *. clearbody t.
    destruct (Z.eqb_spec (Zpos m) (2 ^ 23)) as [E|E].
    + assert (L : inject_Z (Zpos m' + p) <= inject_Z (Zpos m * (2 * p))) by (apply Q_of_le; nia).
      rewrite inject_Z_plus in L. rewrite E2, Z.mul_1_l. nra.
    + assert (L : inject_Z (Zpos m' + 2 * p) <= inject_Z (Zpos m * (2 * p))) by (apply Q_of_le; nia).
      rewrite inject_Z_plus in L. rewrite E1, Z.mul_1_l. nra.
  - replace e' with (e + (e' - e))%Z by lia. rewrite Z_times by lia. set (z := (Zpos m' * 2 ^ (e' - e))%Z). pose proof (two_pos e) as Pt.
    destruct (Z.lt_trichotomy z (Zpos m)) as [L|[->|L]]; [|left; reflexivity|].
    + right; right. pose proof (step_Q _ _ _ Pt L) as S1. assert (G : two ^ (e - 1) <= two ^ e) by (apply Qpower_le_compat_l; [lia|discriminate]).
      destruct (Zpos m =? 2 ^ 23)%Z; lra.
    + right; left. pose proof (step_Q _ _ _ Pt L) as S1. lra.
Qed.

Lemma Qabs_le : forall a b, - b <= a -> a <= b -> Qabs a <= b.
Proof. intros a b H1 H2. apply Qabs_Qle_condition. split; assumption. Qed.

Lemma half_e : forall e, two ^ e == two * two ^ (e - 1).
Proof. intro e. change two with (two ^ 1) at 2. rewrite <- two_add. replace (1 + (e - 1))%Z with e by lia. reflexivity. Qed.

Lemma below_le : forall m e, below m e <= two ^ (e - 1) /\ 0 < below m e.
Proof.
  intros m e. unfold below. destruct (Zpos m =? 2 ^ 23)%Z; (split; [|apply two_pos]); [apply Qpower_le_compat_l; [lia|discriminate]|apply Qle_refl].
Qed.

Definition pos (s : bool) (y : f32) : Q := signed s (value y).

Lemma nearest : forall x y q, finite x -> finite y -> near x q -> Qabs (q - value x) <= Qabs (q - value y).
Proof.
  intros [s|s| |s m e] y q Hx Hy Hn; try contradiction.
  - cbn [near] in Hn. cbn [value]. rewrite Hn. setoid_replace (0 - 0) with 0 by ring. apply Qabs_nonneg.
  - cbn [near] in Hn. cbv zeta in Hn. cbn [value]. set (v := inject_Z (Zpos m) * two ^ e) in *.
    assert (Es : Qabs (q - signed s v) == Qabs (signed s q - v)).
    { destruct s; cbn [signed]; [|reflexivity]. rewrite <- (Qabs_opp (- q - v)). setoid_replace (- (- q - v)) with (q - - v) by ring. reflexivity. }
    assert (Ey : Qabs (q - value y) == Qabs (signed s q - signed s (value y))).
    { destruct s; cbn [signed]; [|reflexivity]. rewrite <- (Qabs_opp (- q - - value y)). setoid_replace (- (- q - - value y)) with (q - value y) by ring. reflexivity. }
    rewrite Es, Ey. set (p := signed s q) in *. clearbody p.
    pose proof (half_e e) as He. pose proof (below_le m e) as [B1 B2]. pose proof (two_pos (e - 1)) as Pt.
    assert (Hv : two ^ e <= v). { unfold v. assert (L : inject_Z 1 <= inject_Z (Zpos m)) by (apply Q_of_le; lia). change (inject_Z 1) with 1 in L. pose proof (two_pos e). nra. }
    assert (C : signed s (value y) == v \/ v + two ^ e <= signed s (value y) \/ signed s (value y) <= v - two * below m e).
    { assert (Neg : signed s (value y) <= 0 -> signed s (value y) == v \/ v + two ^ e <= signed s (value y) \/ signed s (value y) <= v - two * below m e) by (intro N; right; right; lra).
      destruct y as [s'|s'| |s' m' e']; try contradiction; [apply Neg; destruct s; discriminate|].
      pose proof (spacing m e m' e' Hx Hy) as S1. cbv zeta in S1. fold v in S1.
      assert (P' : 0 < inject_Z (Zpos m') * two ^ e').
      { apply Qmult_lt_0_compat; [|apply two_pos]. change 0 with (inject_Z 0). rewrite <- Zlt_Qlt. lia. }
      cbn [value] in *. set (v' := inject_Z (Zpos m') * two ^ e') in *. clearbody v'.
      destruct s, s'; cbn [signed] in *; rewrite ?Qopp_involutive; try exact S1; apply Neg; lra. }
    set (w := signed s (value y)) in *. clearbody w v. set (t := two ^ e) in *. set (h := two ^ (e - 1)) in *. set (lo := below m e) in *. clearbody t h lo.
    destruct C as [->|C]; [apply Qle_refl|].
    pose proof (Qle_Qabs (p - w)) as A1. pose proof (Qle_Qabs (- (p - w))) as A2. rewrite Qabs_opp in A2. set (A := Qabs (p - w)) in *. clearbody A.
    apply Qabs_le; destruct C; lra.
Qed.
