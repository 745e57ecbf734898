(** * FloatRead: the lengths that are read are near to the decimals written. *)

From Coq Require Import List NArith ZArith QArith Qpower Qabs Bool Lia Lqa Floats.SpecFloat.
From Verif Require Import Base Float32 FloatFacts Event Lex SpecNum LexNum SpecDimension DisplayFacts FloatShow FloatRound.
Import ListNotations.
Open Scope Q_scope.

Notation ulp := (1 # 16777216).

(** ** Operations on normal numbers *)

Definition normal (x : f32) : Prop := exists m e, x = S754_finite false m e /\ (2 ^ 23 <= Zpos m < 2 ^ 24)%Z /\ (-149 <= e <= 104)%Z.

Lemma normal_pos : forall x, normal x -> 0 < value x.
Proof. intros x (m & e & -> & _). cbn [value signed]. apply Qmult_lt_0_compat; [apply Q_of_pos; lia|apply two_pos]. Qed.

Lemma normal_finite : forall x, normal x -> finite x.
Proof. intros x (m & e & -> & H1 & H2). cbn [finite]. repeat split; lia. Qed.

Lemma finite_normal : forall x, finite x -> two ^ (-126) <= value x -> normal x.
Proof.
  intros [s|s| |s m e] H Hv; try contradiction. destruct H as (H1 & H2 & H3). cbn [value] in Hv.
  assert (P : 0 < inject_Z (Zpos m) * two ^ e) by (apply Qmult_lt_0_compat; [apply Q_of_pos; lia|apply two_pos]).
  destruct s; cbn [signed] in Hv; [pose proof (two_pos (-126)); exfalso; set (w := two ^ (-126)) in *; clearbody w; lra|].
  exists m, e. split; [reflexivity|]. split; [|exact H2]. split; [|exact H1]. destruct H3 as [H3| ->]; [exact H3|].
  change (-126)%Z with (-149 + 23)%Z in Hv. assert (E : two ^ (-149 + 23) == inject_Z (2 ^ 23) * two ^ (-149)) by (rewrite two_add, (two_Z 23) by lia; ring). rewrite E in Hv.
  rewrite Zle_Qle. apply (Qmult_le_r _ _ _ (two_pos (-149))). exact Hv.
Qed.

(** The binary magnitude of [x * 2^e]. *)
Lemma magnitude_hi : forall x e b, (0 < x)%Z -> inject_Z x * two ^ e < two ^ b -> (dig x + e <= b)%Z.
Proof.
  intros x e b Hx H. destruct (dig_spec x Hx) as [H1 H2]. destruct (Z_le_gt_dec (dig x + e) b) as [L|L]; [exact L|exfalso].
  assert (L1 : two ^ b <= two ^ (dig x - 1 + e)) by (apply Qpower_le_compat_l; [lia|discriminate]).
  rewrite (two_add (dig x - 1) e), <- (two_Z (dig x - 1)) in L1 by lia. assert (L2 : inject_Z (2 ^ (dig x - 1)) <= inject_Z x) by (apply Q_of_le; lia).
  pose proof (two_pos e). set (A := inject_Z (2 ^ _)) in *. clearbody A. set (B := two ^ b) in *. clearbody B. set (C := two ^ e) in *. clearbody C. nra.
Qed.

Lemma magnitude_lo : forall x e b, (0 < x)%Z -> two ^ b <= inject_Z (x + 1) * two ^ e -> (b <= dig x + e)%Z.
Proof.
  intros x e b Hx H. destruct (dig_spec x Hx) as [H1 H2]. destruct (Z_le_gt_dec b (dig x + e)) as [L|L]; [exact L|exfalso].
  assert (L1 : two ^ (dig x + e) < two ^ b) by (apply Qpower_lt_compat_l; [lia|reflexivity]).
  rewrite (two_add (dig x) e), <- (two_Z (dig x)) in L1 by lia. assert (L2 : inject_Z (x + 1) <= inject_Z (2 ^ dig x)) by (apply Q_of_le; lia).
  pose proof (two_pos e). set (A := inject_Z (2 ^ _)) in *. clearbody A. set (B := two ^ b) in *. clearbody B. set (C := two ^ e) in *. clearbody C. nra.
Qed.

(** [z] is [w] rounded. *)
Definition rounded (z : f32) (w : Q) : Prop := normal z /\ Qabs (value z - w) <= w * ulp.

Lemma rounded_of : forall z w, finite z -> two ^ (-125) <= w -> Qabs (value z - w) <= w * ulp -> rounded z w.
Proof.
  intros z w F Hw E. split; [|exact E]. apply finite_normal; [exact F|].
  assert (E5 : two ^ (-125) == two * two ^ (-126)) by reflexivity. rewrite E5 in Hw. pose proof (two_pos (-126)). set (t := two ^ (-126)) in *. clearbody t.
  apply Qabs_Qle_condition in E as [E1 E2]. lra.
Qed.

Lemma op_mul : forall x y, normal x -> normal y -> two ^ (-125) <= value x * value y -> value x * value y < two ^ 127 ->
  rounded (f32_mul x y) (value x * value y).
Proof.
  intros x y (m & e & -> & M1 & M2) (c & k & -> & C1 & C2) L H. cbn [value signed] in *. unfold f32_mul, SFmul. cbn [xorb].
  assert (Ew : inject_Z (Zpos m) * two ^ e * (inject_Z (Zpos c) * two ^ k) == inject_Z (Zpos (m * c)) * two ^ (e + k)) by (rewrite Pos2Z.inj_mul, inject_mul, two_add; ring).
  rewrite Ew in *. pose proof (magnitude_hi (Zpos (m * c)) (e + k) 127 ltac:(lia) H) as G1.
  assert (L' : two ^ (-125) <= inject_Z (Zpos (m * c) + 1) * two ^ (e + k)).
  { apply (Qle_trans _ _ _ L). apply (Qmult_le_r _ _ _ (two_pos (e + k))). apply Q_of_le. lia. }
  pose proof (magnitude_lo (Zpos (m * c)) (e + k) (-125) ltac:(lia) L') as G2.
  destruct (round_exact_spec false (Zpos (m * c)) (e + k) ltac:(lia) ltac:(apply target_24; nia) G1) as (F & _ & R). cbv zeta in *.
  set (w := inject_Z (Zpos (m * c)) * two ^ (e + k)) in *. split.
  - apply rounded_of with (w := w); [exact F|exact L|exact (R G2)].
  - rewrite Ew. fold w. exact (R G2).
Qed.

Lemma binary_round_spec : forall p e, (-125 <= dig (Zpos p) + e <= 127)%Z ->
  let y := binary_round prec32 emax32 false p e in let w := inject_Z (Zpos p) * two ^ e in
  finite y /\ Qabs (value y - w) <= w * ulp.
Proof.
  intros p e H. cbv zeta. unfold binary_round. change (Zpos (digits2_pos p)) with (dig (Zpos p)).
  assert (Ef : fexp prec32 emax32 (dig (Zpos p) + e) = target (Zpos p) e) by reflexivity. rewrite Ef. unfold shl_align.
  destruct (target (Zpos p) e - e)%Z as [|n|n] eqn:En.
  - destruct (round_exact_spec false (Zpos p) e ltac:(lia) ltac:(lia) ltac:(lia)) as (F & _ & R). split; [exact F|]. apply R. lia.
  - destruct (round_exact_spec false (Zpos p) e ltac:(lia) ltac:(lia) ltac:(lia)) as (F & _ & R). split; [exact F|]. apply R. lia.
  - assert (Ed : dig (Zpos (shift_pos n p)) = (dig (Zpos p) + Zpos n)%Z) by (rewrite shift_pos_mul; apply dig_shift; lia).
    assert (Et : target (Zpos (shift_pos n p)) (target (Zpos p) e) = target (Zpos p) e) by (unfold target in *; rewrite Ed; lia).
    destruct (round_exact_spec false (Zpos (shift_pos n p)) (target (Zpos p) e) ltac:(lia) ltac:(lia) ltac:(lia)) as (F & _ & R).
    assert (Ew : inject_Z (Zpos (shift_pos n p)) * two ^ target (Zpos p) e == inject_Z (Zpos p) * two ^ e).
    { replace e with (target (Zpos p) e + Zpos n)%Z at 2 by lia. rewrite Z_times by lia. rewrite shift_pos_mul. reflexivity. }
    cbv zeta in R. split; [exact F|]. rewrite <- Ew. apply R. lia.
Qed.

Lemma op_add : forall x y, normal x -> normal y -> two ^ (-125) <= value x + value y -> value x + value y < two ^ 127 ->
  rounded (f32_add x y) (value x + value y).
Proof.
  intros x y (m & e & -> & M1 & M2) (c & k & -> & C1 & C2) L H. cbn [value signed] in *. unfold f32_add, SFadd. cbn [cond_Zopp].
  set (ez := Z.min e k).
  assert (Al : forall a f, (ez <= f)%Z -> inject_Z (Zpos (fst (shl_align a f ez))) * two ^ ez == inject_Z (Zpos a) * two ^ f).
  { intros a f Hf. unfold shl_align. destruct (ez - f)%Z as [|n|n] eqn:En; cbn [fst]; [replace ez with f by lia; reflexivity|lia|].
    replace f with (ez + Zpos n)%Z by lia. rewrite Z_times by lia. rewrite shift_pos_mul. reflexivity. }
  pose proof (Al m e ltac:(unfold ez; lia)) as A1. pose proof (Al c k ltac:(unfold ez; lia)) as A2.
  set (a := fst (shl_align m e ez)) in *. set (b := fst (shl_align c k ez)) in *. clearbody a b.
  change (Zpos a + Zpos b)%Z with (Zpos (a + b)). cbn [binary_normalize].
  assert (Ew : inject_Z (Zpos m) * two ^ e + inject_Z (Zpos c) * two ^ k == inject_Z (Zpos (a + b)) * two ^ ez) by (rewrite <- A1, <- A2, Pos2Z.inj_add, inject_Z_plus; ring).
  rewrite Ew in *. pose proof (magnitude_hi (Zpos (a + b)) ez 127 ltac:(lia) H) as G1.
  assert (L' : two ^ (-125) <= inject_Z (Zpos (a + b) + 1) * two ^ ez).
  { apply (Qle_trans _ _ _ L). apply (Qmult_le_r _ _ _ (two_pos ez)). apply Q_of_le. lia. }
  pose proof (magnitude_lo (Zpos (a + b)) ez (-125) ltac:(lia) L') as G2.
  destruct (binary_round_spec (a + b) ez ltac:(lia)) as [F R]. cbv zeta in *. set (w := inject_Z (Zpos (a + b)) * two ^ ez) in *.
  split; [apply rounded_of with (w := w); assumption|]. rewrite Ew. exact R.
Qed.

Lemma location_holds : forall k q r, (0 < k)%Z -> (0 <= q)%Z -> (0 <= r < k)%Z -> holds k (q * k + r) 0 (shr_record_of_loc q (new_location k r)).
Proof.
  intros k q r Hk Hq Hr. unfold holds. rewrite shr_of_loc_m. split; [exact Hq|]. exists r. change (2 ^ 0 * k)%Z with (1 * k)%Z. rewrite Z.mul_1_l. split; [reflexivity|]. split; [exact Hr|].
  unfold new_location, new_location_even, new_location_odd.
  destruct (Z.even k) eqn:Ek; destruct (Zeq_bool r 0) eqn:E0; cbn [shr_record_of_loc shr_r shr_s].
  1,3: apply Zeq_bool_eq in E0; exact E0.
  - apply Zeq_bool_neq in E0. destruct (Z.compare_spec (2 * r) k); cbn [shr_record_of_loc shr_r shr_s]; lia.
  - apply Zeq_bool_neq in E0. assert (Ho : Z.odd k = true) by (rewrite <- Z.negb_even, Ek; reflexivity). apply Z.odd_spec in Ho as [j Hj].
    destruct (Z.compare_spec (2 * r + 1) k); cbn [shr_record_of_loc shr_r shr_s]; lia.
Qed.

Lemma op_div : forall x y, normal x -> normal y -> two ^ (-110) <= value x / value y -> value x / value y < two ^ 127 ->
  rounded (f32_div x y) (value x / value y).
Proof.
  intros x y (m & e & -> & M1 & M2) (c & k & -> & C1 & C2) L H. cbn [value signed] in *. unfold f32_div, SFdiv, SFdiv_core_binary. cbn [xorb].
  change (Zdigits2 (Zpos m)) with (dig (Zpos m)). change (Zdigits2 (Zpos c)) with (dig (Zpos c)).
  assert (Dm : dig (Zpos m) = 24%Z) by (apply dig_unique; lia). assert (Dc : dig (Zpos c) = 24%Z) by (apply dig_unique; lia). rewrite Dm, Dc.
  assert (Qc : ~ inject_Z (Zpos c) == 0) by (intro N; pose proof (Q_of_pos (Zpos c) ltac:(lia)) as P; rewrite N in P; discriminate).
  assert (Ek : inject_Z (Zpos m) * two ^ e / (inject_Z (Zpos c) * two ^ k) == inject_Z (Zpos m) / inject_Z (Zpos c) * two ^ (e - k)).
  { unfold Z.sub. rewrite two_add, Qpower_opp. field. split; [intro N; pose proof (two_pos k) as P; rewrite N in P; discriminate|exact Qc]. }
  (* the exponents *)
  assert (Hek : (-112 <= e - k)%Z).
  { rewrite Ek in L. destruct (Z_le_gt_dec (-112) (e - k)) as [G|G]; [exact G|exfalso].
    assert (L1 : two ^ (e - k) <= two ^ (-113)) by (apply Qpower_le_compat_l; [lia|discriminate]).
    assert (L2 : inject_Z (Zpos m) / inject_Z (Zpos c) <= two).
    { apply Qle_shift_div_r; [apply Q_of_pos; lia|]. change two with (inject_Z 2). rewrite <- inject_mul. apply Q_of_le. lia. }
    pose proof (two_pos (e - k)). assert (P0 : two * two ^ (-113) < two ^ (-110)) by reflexivity. set (t := two ^ (-113)) in *. set (u := two ^ (-110)) in *. clearbody t u.
    set (v := two ^ (e - k)) in *. clearbody v. set (f := inject_Z (Zpos m) / inject_Z (Zpos c)) in *. clearbody f. nra. }
  assert (Ee : Z.min (fexp prec32 emax32 (24 + e - (24 + k))) (e - k) = (e - k - 24)%Z) by (unfold fexp, emin, prec32, emax32; lia).
  rewrite Ee. replace (e - k - (e - k - 24))%Z with 24%Z by lia. cbv iota beta. rewrite Z.shiftl_mul_pow2 by lia.
  pose proof (Z_div_mod (Zpos m * 2 ^ 24) (Zpos c) ltac:(lia)) as Hd. destruct (Z.div_eucl (Zpos m * 2 ^ 24) (Zpos c)) as [q r]. destruct Hd as [Hd Hr].
  assert (Hq : (2 ^ 23 <= q)%Z) by nia. assert (Hq0 : (0 < q)%Z) by lia.
  set (ex := (e - k - 24)%Z) in *.
  assert (Ew : inject_Z (Zpos m) * two ^ e / (inject_Z (Zpos c) * two ^ k) == inject_Z (q * Zpos c + r) / inject_Z (Zpos c) * two ^ ex).
  { rewrite Ek. replace (q * Zpos c + r)%Z with (Zpos m * 2 ^ 24)%Z by lia. rewrite inject_mul. replace (e - k)%Z with (24 + ex)%Z by (unfold ex; lia). rewrite two_add, <- (two_Z 24) by lia. field. exact Qc. }
  assert (Lo : inject_Z q <= inject_Z (q * Zpos c + r) / inject_Z (Zpos c)).
  { apply Qle_shift_div_l; [apply Q_of_pos; lia|]. rewrite <- inject_mul. apply Q_of_le. lia. }
  assert (Hi : inject_Z (q * Zpos c + r) / inject_Z (Zpos c) <= inject_Z (q + 1)).
  { apply Qle_shift_div_r; [apply Q_of_pos; lia|]. rewrite <- inject_mul. apply Q_of_le. lia. }
  rewrite Ew in L, H. pose proof (two_pos ex) as Px.
  assert (G1 : (dig q + ex <= 127)%Z).
  { apply magnitude_hi; [exact Hq0|]. eapply Qle_lt_trans; [|exact H]. apply (Qmult_le_r _ _ _ Px). exact Lo. }
  assert (G2 : (-110 <= dig q + ex)%Z).
  { apply magnitude_lo; [exact Hq0|]. apply (Qle_trans _ _ _ L). apply (Qmult_le_r _ _ _ Px). exact Hi. }
  destruct (round_spec false (Zpos c) (q * Zpos c + r) q ex (new_location (Zpos c) r) ltac:(lia) Hq0 ltac:(lia) (location_holds (Zpos c) q r ltac:(lia) ltac:(lia) ltac:(lia)) ltac:(apply target_24; exact Hq) G1) as (F & _ & R).
  cbv zeta in *. specialize (R ltac:(lia)). cbn [signed] in R. set (w := inject_Z (q * Zpos c + r) / inject_Z (Zpos c) * two ^ ex) in *.
  assert (L5 : two ^ (-125) <= w) by (eapply Qle_trans; [|exact L]; vm_compute; discriminate).
  split; [apply rounded_of with (w := w); [exact F|exact L5|exact R]|]. rewrite Ew. exact R.
Qed.

(** ** Small integers *)

Lemma int_value : forall z, (0 < z < 2 ^ 24)%Z -> normal (f32_of_Z z) /\ value (f32_of_Z z) == inject_Z z.
Proof.
  intros z Hz. rewrite of_Z_exact by exact Hz. pose proof (dig_24 z Hz) as Hd. pose proof (shift_24 z Hz) as [P E]. unfold fint. cbn [value signed]. rewrite Z2Pos.id by exact P.
  destruct (dig_spec _ P) as [D1 D2]. rewrite E in D2. split.
  - eexists _, _. split; [reflexivity|]. rewrite Z2Pos.id by exact P. split; [exact D2|lia].
  - rewrite inject_mul, (two_Z (24 - dig z)) by lia. rewrite <- Qmult_assoc, <- two_add. replace (24 - dig z + (dig z - 24))%Z with 0%Z by lia. change (two ^ 0) with 1. ring.
Qed.

(** [x] is [v] up to [k] units in the last place. *)
Definition close (x : f32) (v : Z) (k : Z) : Prop := normal x /\ Qabs (value x - inject_Z v) <= inject_Z v * (inject_Z k * ulp).

Lemma range_of : forall a z k, (1 <= z <= 10 ^ 36)%Z -> (0 <= k <= 200)%Z -> Qabs (a - inject_Z z) <= inject_Z z * (inject_Z k * ulp) ->
  inject_Z z * (1 - (1 # 65536)) <= a <= inject_Z z * (1 + (1 # 65536)).
Proof.
  intros a z k Hz Hk H. apply Qabs_Qle_condition in H as [H1 H2].
  assert (Pz : 0 < inject_Z z) by (apply Q_of_pos; lia). assert (K : inject_Z k <= inject_Z 200) by (apply Q_of_le; lia). change (inject_Z 200) with (200 # 1) in K.
  set (Z' := inject_Z z) in *. set (K' := inject_Z k) in *. clearbody Z' K'. split; nra.
Qed.

Lemma big_36 : inject_Z (10 ^ 36) * (2 # 1) < two ^ 127.
Proof. reflexivity. Qed.

Lemma mul10 : forall x z k, close x z k -> (1 <= z)%Z -> (10 * z <= 10 ^ 36)%Z -> (0 <= k <= 190)%Z -> close (f32_mul x (f32_of_Z 10)) (10 * z) (k + 2).
Proof.
  intros x z k [N E] Hz H10 Hk. destruct (int_value 10 ltac:(lia)) as [T1 T2].
  destruct (range_of (value x) z k ltac:(lia) ltac:(lia) E) as [R1 R2]. pose proof (Q_of_pos z ltac:(lia)) as Pz.
  assert (B : inject_Z (10 * z) <= inject_Z (10 ^ 36)) by (apply Q_of_le; exact H10). rewrite inject_mul in B. change (inject_Z 10) with ten in *.
  assert (Z1 : inject_Z 1 <= inject_Z z) by (apply Q_of_le; exact Hz). change (inject_Z 1) with 1 in Z1.
  pose proof big_36 as B36.
  assert (M : rounded (f32_mul x (f32_of_Z 10)) (value x * value (f32_of_Z 10))).
  { apply op_mul; [exact N|exact T1| |]; rewrite T2.
    - apply Qle_trans with 1; [vm_compute; discriminate|]. lra.
    - eapply Qle_lt_trans; [|exact B36]. set (t := inject_Z (10 ^ 36)) in *. clearbody t. lra. }
  destruct M as [M1 M2]. split; [exact M1|]. rewrite T2 in M2. rewrite inject_mul, inject_Z_plus. change (inject_Z 10) with ten. change (inject_Z 2) with two.
  set (b := value (f32_mul x (f32_of_Z 10))) in *. set (a := value x) in *. set (Z' := inject_Z z) in *. set (K := inject_Z k) in *. clearbody a b Z'.
  assert (PK : 0 <= K) by (change 0 with (inject_Z 0); apply Q_of_le; lia). clearbody K.
  apply Qabs_Qle_condition in E as [E1 E2]. apply Qabs_Qle_condition in M2 as [M3 M4]. set (ZK := Z' * (K * ulp)) in *.
  assert (EZ : ten * Z' * ((K + two) * ulp) == ten * ZK + (20 # 1) * Z' * ulp) by (unfold ZK; ring). rewrite EZ. clearbody ZK. apply Qabs_le; lra.
Qed.

Lemma add_digit : forall x z k d, close x z k -> (1 <= z)%Z -> (0 <= d <= 9)%Z -> (z + d <= 10 ^ 36)%Z -> (0 <= k <= 190)%Z ->
  close (f32_add x (f32_of_Z d)) (z + d) (k + 2).
Proof.
  intros x z k d [N E] Hz Hd H36 Hk. destruct (range_of (value x) z k ltac:(lia) ltac:(lia) E) as [R1 R2]. pose proof (Q_of_pos z ltac:(lia)) as Pz.
  assert (PK : 0 <= inject_Z k) by (change 0 with (inject_Z 0); apply Q_of_le; lia).
  destruct (Z.eq_dec d 0) as [->|Hd0].
  - change (f32_of_Z 0) with (S754_zero false). assert (E0 : f32_add x (S754_zero false) = x) by (destruct N as (m & e & -> & _); reflexivity). rewrite E0.
    split; [exact N|]. rewrite Z.add_0_r, inject_Z_plus. change (inject_Z 2) with two. set (Z' := inject_Z z) in *. set (K := inject_Z k) in *. clearbody Z' K. apply (Qle_trans _ _ _ E). nra.
  - destruct (int_value d ltac:(lia)) as [T1 T2]. pose proof (Q_of_pos d ltac:(lia)) as Pd.
    assert (B : inject_Z (z + d) <= inject_Z (10 ^ 36)) by (apply Q_of_le; exact H36). rewrite inject_Z_plus in B.
    assert (Z1 : inject_Z 1 <= inject_Z z) by (apply Q_of_le; exact Hz). change (inject_Z 1) with 1 in Z1. pose proof big_36 as B36.
    assert (M : rounded (f32_add x (f32_of_Z d)) (value x + value (f32_of_Z d))).
    { apply op_add; [exact N|exact T1| |]; rewrite T2.
      - apply Qle_trans with (1 # 2); [vm_compute; discriminate|]. lra.
      - eapply Qle_lt_trans; [|exact B36]. set (t := inject_Z (10 ^ 36)) in *. clearbody t. lra. }
    destruct M as [M1 M2]. split; [exact M1|]. rewrite T2 in M2. rewrite !inject_Z_plus. change (inject_Z 2) with two.
    set (b := value (f32_add x (f32_of_Z d))) in *. set (a := value x) in *. set (Z' := inject_Z z) in *. set (K := inject_Z k) in *. set (D := inject_Z d) in *. clearbody a b Z' K D.
    apply Qabs_Qle_condition in E as [E1 E2]. apply Qabs_Qle_condition in M2 as [M3 M4]. set (ZK := Z' * (K * ulp)) in *.
    assert (EZ : (Z' + D) * ((K + two) * ulp) == ZK + D * K * ulp + two * Z' * ulp + two * D * ulp) by (unfold ZK; ring). rewrite EZ.
    assert (DK : 0 <= D * K * ulp) by nra. clearbody ZK. set (dk := D * K * ulp) in *. clearbody dk. apply Qabs_le; lra.
Qed.

(** Digits read, up to a number of units. *)
Definition approx (x : f32) (z k : Z) : Prop := (z = 0%Z /\ x = S754_zero false) \/ ((1 <= z)%Z /\ close x z k).

Lemma close_more : forall x z k j, (1 <= z)%Z -> (k <= j)%Z -> close x z k -> close x z j.
Proof.
  intros x z k j Hz H [N E]. split; [exact N|]. apply (Qle_trans _ _ _ E). assert (L : inject_Z k <= inject_Z j) by (apply Q_of_le; exact H). pose proof (Q_of_pos z ltac:(lia)). nra.
Qed.

Lemma int_close : forall z k, (0 < z < 2 ^ 24)%Z -> (0 <= k)%Z -> close (f32_of_Z z) z k.
Proof.
  intros z k Hz Hk. destruct (int_value z Hz) as [N E]. split; [exact N|]. rewrite E. setoid_replace (inject_Z z - inject_Z z) with 0 by ring.
  change (Qabs 0) with 0. pose proof (Q_of_pos z ltac:(lia)). assert (0 <= inject_Z k) by (change 0 with (inject_Z 0); apply Q_of_le; lia). nra.
Qed.

Lemma digits_fold : forall ds x z n, digits ds -> approx x z (4 * n) -> (0 <= n)%Z -> (0 <= z < 10 ^ n)%Z -> (n + Z.of_nat (length ds) <= 36)%Z ->
  let z' := fold_left (fun z c => 10 * z + (Z.of_N c - 48))%Z ds z in
  approx (fold_left (fun n c => f32_add (f32_mul n (f32_of_Z 10)) (f32_of_Z (Z.of_N (digit_val c)))) ds x) z' (4 * (n + Z.of_nat (length ds))) /\ (0 <= z' < 10 ^ (n + Z.of_nat (length ds)))%Z.
Proof.
  induction ds as [|c ds IH]; intros x z n Hds Hx Hn Hz Hl; cbv zeta.
  - cbn [fold_left length]. change (Z.of_nat 0) with 0%Z. rewrite Z.add_0_r. auto.
  - apply Forall_cons_iff in Hds as [Hc Hds]. cbn [fold_left length] in *. rewrite Nat2Z.inj_succ in *.
    replace (n + Z.succ (Z.of_nat (length ds)))%Z with (n + 1 + Z.of_nat (length ds))%Z by lia.
    assert (Ed : Z.of_N (digit_val c) = (Z.of_N c - 48)%Z) by (unfold digit_val; unfold digit in Hc; lia). rewrite Ed. set (d := (Z.of_N c - 48)%Z) in *. assert (Hd : (0 <= d <= 9)%Z) by (unfold d; unfold digit in Hc; lia). clearbody d.
    assert (P10 : (10 ^ (n + 1) = 10 * 10 ^ n)%Z) by (rewrite Z.pow_add_r by lia; change (10 ^ 1)%Z with 10%Z; lia).
    apply IH; [exact Hds| |lia|lia|lia].
    assert (L36 : (10 ^ (n + 1) <= 10 ^ 36)%Z) by (apply Z.pow_le_mono_r; lia).
    destruct Hx as [[-> ->]|[Hz1 Hx]].
    + change (f32_mul (S754_zero false) (f32_of_Z 10)) with (S754_zero false). rewrite Z.mul_0_r, Z.add_0_l.
      destruct (Z.eq_dec d 0) as [->|Hd0]; [left; split; reflexivity|]. right. split; [lia|].
      assert (E0 : f32_add (S754_zero false) (f32_of_Z d) = f32_of_Z d) by (destruct (int_value d ltac:(lia)) as [(m & e & -> & _) _]; reflexivity). rewrite E0. apply int_close; lia.
    + right. split; [lia|]. replace (4 * (n + 1))%Z with (4 * n + 2 + 2)%Z by lia. apply add_digit; [|lia|exact Hd|lia|lia]. apply mul10; [exact Hx|lia|lia|lia].
Qed.

Lemma digits_read : forall ds, digits ds -> (length ds <= 36)%nat -> approx (f32_digits ds) (decimal_of ds) (4 * Z.of_nat (length ds)) /\ (0 <= decimal_of ds < 10 ^ Z.of_nat (length ds))%Z.
Proof.
  intros ds H Hl. apply (digits_fold ds (S754_zero false) 0 0 H); [left; auto|lia|cbn; lia|lia].
Qed.

Lemma pow_fold : forall (ds : str) x z n, close x z (2 * n) -> (0 <= n)%Z -> z = (10 ^ n)%Z -> (n + Z.of_nat (length ds) <= 36)%Z ->
  close (fold_left (fun n _ => f32_mul n (f32_of_Z 10)) ds x) (10 ^ (n + Z.of_nat (length ds))) (2 * (n + Z.of_nat (length ds))).
Proof.
  induction ds as [|c ds IH]; intros x z n Hx Hn -> Hl; cbn [fold_left length] in *; [rewrite Z.add_0_r; exact Hx|].
  rewrite Nat2Z.inj_succ in *. replace (n + Z.succ (Z.of_nat (length ds)))%Z with (n + 1 + Z.of_nat (length ds))%Z by lia.
  assert (P10 : (10 ^ (n + 1) = 10 * 10 ^ n)%Z) by (rewrite Z.pow_add_r by lia; change (10 ^ 1)%Z with 10%Z; lia).
  apply (IH _ (10 ^ (n + 1))%Z); [|lia|reflexivity|lia]. rewrite P10. replace (2 * (n + 1))%Z with (2 * n + 2)%Z by lia.
  assert (1 <= 10 ^ n)%Z by (apply (Z.pow_le_mono_r 10 0 n); lia). assert (10 ^ (n + 1) <= 10 ^ 36)%Z by (apply Z.pow_le_mono_r; lia).
  apply mul10; [exact Hx|lia|lia|lia].
Qed.

Lemma pow_read : forall ds, (length ds <= 36)%nat -> close (f32_pow10 ds) (10 ^ Z.of_nat (length ds)) (2 * Z.of_nat (length ds)).
Proof. intros ds H. apply (pow_fold ds (f32_of_Z 1) 1 0); [apply int_close; lia|lia|reflexivity|lia]. Qed.

(** ** The number *)

(** [x] is [q] up to [k] units. *)
Definition within (x : f32) (q : Q) (k : Z) : Prop := finite x /\ Qabs (value x - q) <= q * (inject_Z k * ulp) /\ (q == 0 -> x = S754_zero false) /\ (0 < q -> normal x).

Lemma approx_within : forall x z k, (0 <= z)%Z -> approx x z k -> within x (inject_Z z) k.
Proof.
  intros x z k Hz [[-> ->]|[H1 [N E]]].
  - split; [exact I|]. change (inject_Z 0) with 0. split; [cbn [value]; rewrite Qmult_0_l; discriminate|]. split; [reflexivity|]. intro H. discriminate.
  - split; [apply normal_finite; exact N|]. split; [exact E|]. split; [|auto]. intro N0. pose proof (Q_of_pos z ltac:(lia)) as P. rewrite N0 in P. discriminate.
Qed.

Lemma quotient : forall F P f n, (1 <= n <= 30)%Z -> (1 <= f < 10 ^ n)%Z -> close F f (4 * n) -> close P (10 ^ n) (2 * n) ->
  normal (f32_div F P) /\ Qabs (value (f32_div F P) - inject_Z f * ten ^ (- n)) <= inject_Z f * ten ^ (- n) * (inject_Z (7 * n + 2) * ulp).
Proof.
  intros F P f n Hn Hf [NF EF] [NP EP].
  assert (L36 : (10 ^ n <= 10 ^ 36)%Z) by (apply Z.pow_le_mono_r; lia). assert (L1 : (1 <= 10 ^ n)%Z) by lia.
  destruct (range_of (value F) f (4 * n) ltac:(lia) ltac:(lia) EF) as [F1 F2]. destruct (range_of (value P) (10 ^ n) (2 * n) ltac:(lia) ltac:(lia) EP) as [P1 P2].
  pose proof (Q_of_pos f ltac:(lia)) as Pf. pose proof (Q_of_pos (10 ^ n) ltac:(lia)) as Pp.
  assert (Et : ten ^ (- n) == / inject_Z (10 ^ n)) by (rewrite Qpower_opp, ten_Z by lia; reflexivity). rewrite Et.
  assert (Ef : inject_Z f * / inject_Z (10 ^ n) == inject_Z f / inject_Z (10 ^ n)) by reflexivity. rewrite Ef.
  pose proof (normal_pos P NP) as PP.
  assert (Lf : inject_Z f <= inject_Z (10 ^ n)) by (apply Q_of_le; lia). assert (L30 : inject_Z (10 ^ n) <= inject_Z (10 ^ 30)) by (apply Q_of_le, Z.pow_le_mono_r; lia).
  assert (F1' : 1 <= inject_Z f) by (change 1 with (inject_Z 1); apply Q_of_le; lia).
  assert (D : rounded (f32_div F P) (value F / value P)).
  { apply op_div; [exact NF|exact NP| |].
    - apply Qle_shift_div_l; [exact PP|]. apply Qle_trans with (1 # 2); [|lra].
      apply Qle_trans with (two ^ (-110) * (inject_Z (10 ^ 30) * (1 + (1 # 65536)))); [|vm_compute; discriminate].
      pose proof (two_pos (-110)) as T. set (t := two ^ (-110)) in *. clearbody t. apply (Qmult_le_l _ _ t T). set (b := inject_Z (10 ^ 30)) in *. clearbody b. lra.
    - apply Qlt_shift_div_r; [exact PP|]. apply Qle_lt_trans with (two * value P); [lra|]. apply (Qmult_lt_r _ _ _ PP). reflexivity. }
  destruct D as [D1 D2]. split; [exact D1|].
  set (b := value (f32_div F P)) in *. clearbody b. set (A := value F) in *. set (B := value P) in *. clearbody A B.
  set (fq := inject_Z f) in *. set (p := inject_Z (10 ^ n)) in *. clearbody fq p.
  rewrite !inject_mul in *. rewrite inject_Z_plus, inject_mul. change (inject_Z 4) with (4 # 1) in *. change (inject_Z 2) with two in *. change (inject_Z 7) with (7 # 1).
  assert (N1 : 1 <= inject_Z n) by (change 1 with (inject_Z 1); apply Q_of_le; lia). assert (N30 : inject_Z n <= 30) by (change 30 with (inject_Z 30); apply Q_of_le; lia).
  set (m := inject_Z n) in *. clearbody m.
  (* everything over B and p *)
  set (w := A / B) in *. set (g := fq / p). assert (Ew : A == w * B) by (unfold w; field; intro N; rewrite N in PP; discriminate).
  assert (Eg : fq == g * p) by (unfold g; field; intro N; rewrite N in Pp; discriminate).
  assert (Pg : 0 < g) by (unfold g; apply Qlt_shift_div_l; [exact Pp|]; rewrite Qmult_0_l; exact Pf). clearbody w g.
  rewrite Ew, Eg in EF. rewrite Ew, Eg in F1, F2.
  apply Qabs_Qle_condition in EF as [E1 E2]. apply Qabs_Qle_condition in EP as [E3 E4]. apply Qabs_Qle_condition in D2 as [D3 D4].
  clear L1 L36 Hf Hn Et Ef L30.
  (* w B within g p (1 +- 4 m u), B within p (1 +- 2 m u) *)
  assert (W1 : w - g <= g * ((13 # 2) * m * ulp)).
  { apply (Qmult_le_r _ _ _ PP). assert (X : g * p - g * B <= g * (p * (two * m * ulp))) by nra.
    assert (Y : w * B - g * B <= g * p * ((6 # 1) * m * ulp)) by lra.
    setoid_replace ((w - g) * B) with (w * B - g * B) by ring. apply (Qle_trans _ _ _ Y).
    assert (Z1 : p * (6 # 1) <= (13 # 2) * B) by lra. assert (Z2 : 0 <= g * (m * ulp)) by nra. set (gm := g * (m * ulp)) in *.
    setoid_replace (g * p * ((6 # 1) * m * ulp)) with (gm * (p * (6 # 1))) by (unfold gm; ring). setoid_replace (g * ((13 # 2) * m * ulp) * B) with (gm * ((13 # 2) * B)) by (unfold gm; ring). clearbody gm. nra. }
  assert (W2 : g - w <= g * ((13 # 2) * m * ulp)).
  { apply (Qmult_le_r _ _ _ PP). assert (X : g * B - g * p <= g * (p * (two * m * ulp))) by nra.
    assert (Y : g * B - w * B <= g * p * ((6 # 1) * m * ulp)) by lra.
    setoid_replace ((g - w) * B) with (g * B - w * B) by ring. apply (Qle_trans _ _ _ Y).
    assert (Z1 : p * (6 # 1) <= (13 # 2) * B) by lra. assert (Z2 : 0 <= g * (m * ulp)) by nra. set (gm := g * (m * ulp)) in *.
    setoid_replace (g * p * ((6 # 1) * m * ulp)) with (gm * (p * (6 # 1))) by (unfold gm; ring). setoid_replace (g * ((13 # 2) * m * ulp) * B) with (gm * ((13 # 2) * B)) by (unfold gm; ring). clearbody gm. nra. }
  assert (Gm : g * ((13 # 2) * m * ulp) <= g * (1 # 65536)) by nra.
  assert (EZ : g * (((7 # 1) * m + two) * ulp) == g * ((13 # 2) * m * ulp) + (1 # 2) * (g * m * ulp) + two * g * ulp) by ring. rewrite EZ.
  assert (Gp : 0 <= g * m * ulp) by nra. set (x1 := g * ((13 # 2) * m * ulp)) in *. set (x2 := g * m * ulp) in *. clearbody x1 x2.
  apply Qabs_le; lra.
Qed.

Lemma within_zero : forall k, within (S754_zero false) 0 k.
Proof. intro k. split; [exact I|]. split; [cbn [value]; rewrite Qmult_0_l; discriminate|]. split; [reflexivity|]. intro H. discriminate. Qed.

Lemma within_more : forall x q k j, 0 <= q -> (k <= j)%Z -> within x q k -> within x q j.
Proof.
  intros x q k j Hq H (F & E & Z0 & P). split; [exact F|]. split; [|auto]. apply (Qle_trans _ _ _ E). assert (L : inject_Z k <= inject_Z j) by (apply Q_of_le; exact H). nra.
Qed.

Lemma within_eq : forall x q r k, q == r -> within x q k -> within x r k.
Proof. intros x q r k E (F & H & Z0 & P). split; [exact F|]. split; [rewrite <- E; exact H|]. split; intro; [apply Z0|apply P]; rewrite E; assumption. Qed.

Lemma sum_within : forall x y a b j k, (0 <= j <= 400)%Z -> (0 <= k <= 400)%Z -> (a == 0 \/ 1 <= a) -> a < inject_Z (10 ^ 36) -> (b == 0 \/ two ^ (-120) <= b) -> b < 2 # 1 ->
  within x a j -> within y b k -> within (f32_add x y) (a + b) (j + k + 2).
Proof.
  intros x y a b j k Hj Hk Ha Ha' Hb Hb' X Y.
  destruct Ha as [Ha|Ha].
  { pose proof X as (_ & _ & Zx & _). rewrite (Zx Ha). apply (within_eq _ b); [rewrite Ha; ring|].
    assert (E : f32_add (S754_zero false) y = y).
    { destruct Y as (_ & _ & Zy & Py). destruct Hb as [Hb|Hb]; [rewrite (Zy Hb); reflexivity|].
      destruct (Py ltac:(apply Qlt_le_trans with (two ^ (-120)); [reflexivity|exact Hb])) as (m & e & -> & _). reflexivity. }
    rewrite E. apply (within_more _ _ k); [|lia|exact Y]. destruct Hb as [Hb|Hb]; [rewrite Hb; discriminate|]. apply Qle_trans with (two ^ (-120)); [discriminate|exact Hb]. }
  assert (Nx : normal x) by (destruct X as (_ & _ & _ & P); apply P; lra).
  destruct Hb as [Hb|Hb].
  { pose proof Y as (_ & _ & Zy & _). rewrite (Zy Hb). apply (within_eq _ a); [rewrite Hb; ring|].
    assert (E : f32_add x (S754_zero false) = x) by (destruct Nx as (m & e & -> & _); reflexivity). rewrite E.
    apply (within_more _ _ j); [lra|lia|exact X]. }
  assert (Pb : 0 < b) by (apply Qlt_le_trans with (two ^ (-120)); [reflexivity|exact Hb]).
  assert (Ny : normal y) by (destruct Y as (_ & _ & _ & P); apply P; exact Pb).
  destruct X as (_ & EX & _ & _). destruct Y as (_ & EY & _ & _). apply Qabs_Qle_condition in EX as [X1 X2]. apply Qabs_Qle_condition in EY as [Y1 Y2].
  assert (J0 : 0 <= inject_Z j) by (change 0 with (inject_Z 0); apply Q_of_le; lia). assert (J1 : inject_Z j <= 400) by (change 400 with (inject_Z 400); apply Q_of_le; lia).
  assert (K0 : 0 <= inject_Z k) by (change 0 with (inject_Z 0); apply Q_of_le; lia). assert (K1 : inject_Z k <= 400) by (change 400 with (inject_Z 400); apply Q_of_le; lia).
  set (P := inject_Z j) in *. set (R := inject_Z k) in *. 
  assert (S1 : a * (P * ulp) <= a * (1 # 16384)) by nra. assert (S2 : b * (R * ulp) <= b * (1 # 16384)) by nra.
  destruct (op_add x y Nx Ny) as [N E].
  - apply Qle_trans with (1 # 2); [discriminate|]. lra.
  - apply Qle_lt_trans with (two * inject_Z (10 ^ 36) + (4 # 1)); [lra|]. reflexivity.
  - assert (Ek : inject_Z (j + k + 2) == P + R + two) by (rewrite !inject_Z_plus; reflexivity).
    split; [apply normal_finite; exact N|]. split; [|split; [intro H; exfalso; lra|auto]]. rewrite Ek. apply Qabs_Qle_condition in E as [E1 E2].
    set (v := value (f32_add x y)) in *. clearbody v P R. set (A := value x) in *. set (B := value y) in *. clearbody A B.
    assert (Er : (a + b) * ((P + R + two) * ulp) == a * (P * ulp) + b * (R * ulp) + a * (R * ulp) + b * (P * ulp) + two * (a + b) * ulp) by ring. rewrite Er.
    assert (Q1 : 0 <= a * (R * ulp)) by nra. assert (Q2 : 0 <= b * (P * ulp)) by nra.
    set (x1 := a * (P * ulp)) in *. set (x2 := b * (R * ulp)) in *. set (x3 := a * (R * ulp)) in *. set (x4 := b * (P * ulp)) in *. clearbody x1 x2 x3 x4.
    apply Qabs_le; lra.
Qed.

Lemma mul_opp : forall m e y, normal y -> f32_mul (S754_finite true m e) y = SFopp (f32_mul (S754_finite false m e) y).
Proof.
  intros m e y (c & k & -> & _). unfold f32_mul, SFmul. cbn [xorb]. unfold binary_round_aux. destruct (shr_fexp _ _ _ _ _) as [mrs e']. destruct (shr_fexp _ _ _ _ _) as [mrs' e''].
  destruct (shr_m mrs'); try reflexivity. destruct (Z.leb _ _); reflexivity.
Qed.

Lemma opp_value : forall x, finite x -> finite (SFopp x) /\ value (SFopp x) == - value x.
Proof. intros [s|s| |s m e] H; cbn [SFopp finite value signed] in *; try contradiction; [split; [exact I|reflexivity]|]. split; [exact H|]. destruct s; cbn [negb signed]; ring. Qed.

Lemma signed_within : forall (neg : bool) x q k, (0 <= k <= 400)%Z -> 0 <= q -> q < inject_Z (10 ^ 36) * (2 # 1) -> (q == 0 \/ two ^ (-120) <= q) -> within x q k ->
  finite (f32_mul (f32_of_Z (if neg then -1 else 1)%Z) x) /\
  Qabs (value (f32_mul (f32_of_Z (if neg then -1 else 1)%Z) x) - signed neg q) <= q * (inject_Z (k + 2) * ulp).
Proof.
  intros neg x q k Hk Hq Hhi Hlo X. pose proof X as (F & E & Z0 & P). destruct Hlo as [Hlo|Hlo].
  { rewrite (Z0 Hlo). assert (E0 : signed neg q == 0) by (destruct neg; cbn [signed]; rewrite Hlo; reflexivity). rewrite E0, Hlo, Qmult_0_l. destruct neg; (split; [exact I|vm_compute; congruence]). }
  assert (Pq : 0 < q) by (apply Qlt_le_trans with (two ^ (-120)); [reflexivity|exact Hlo]). specialize (P Pq).
  apply Qabs_Qle_condition in E as [E1 E2].
  assert (K0 : 0 <= inject_Z k) by (change 0 with (inject_Z 0); apply Q_of_le; lia). assert (K1 : inject_Z k <= 400) by (change 400 with (inject_Z 400); apply Q_of_le; lia).
  assert (Ek : inject_Z (k + 2) == inject_Z k + two) by (rewrite !inject_Z_plus; reflexivity). rewrite Ek. set (K := inject_Z k) in *. clearbody K.
  assert (S1 : q * (K * ulp) <= q * (1 # 16384)) by nra.
  destruct (int_value 1 ltac:(lia)) as [N1 V1]. change (inject_Z 1) with 1 in V1.
  assert (Vx : value (f32_of_Z 1) * value x == value x) by (rewrite V1; ring).
  destruct (op_mul (f32_of_Z 1) x N1 P) as [N D].
  - rewrite Vx. apply Qle_trans with ((1 # 2) * two ^ (-120)); [discriminate|]. pose proof (two_pos (-120)). set (t := two ^ (-120)) in *. clearbody t. lra.
  - rewrite Vx. apply Qle_lt_trans with (inject_Z (10 ^ 36) * (4 # 1)); [|reflexivity]. set (t := inject_Z (10 ^ 36)) in *. clearbody t. lra.
  - rewrite Vx in D. apply Qabs_Qle_condition in D as [D1 D2].
    assert (G : Qabs (value (f32_mul (f32_of_Z 1) x) - q) <= q * ((K + two) * ulp)).
    { set (v := value (f32_mul (f32_of_Z 1) x)) in *. clearbody v. set (A := value x) in *. clearbody A.
      assert (Er : q * ((K + two) * ulp) == q * (K * ulp) + two * q * ulp) by ring. rewrite Er. set (x1 := q * (K * ulp)) in *. clearbody x1. apply Qabs_le; lra. }
    destruct neg; cbn [signed].
    + change (f32_of_Z (-1)) with (S754_finite true 8388608 (-23)). rewrite (mul_opp _ _ _ P). change (S754_finite false 8388608 (-23)) with (f32_of_Z 1).
      destruct (opp_value (f32_mul (f32_of_Z 1) x) (normal_finite _ N)) as [O1 O2]. split; [exact O1|]. rewrite O2.
      assert (Es : - value (f32_mul (f32_of_Z 1) x) - - q == - (value (f32_mul (f32_of_Z 1) x) - q)) by ring. rewrite Es, Qabs_opp. exact G.
    + split; [apply normal_finite; exact N|exact G].
Qed.

Lemma decimal_app_from : forall b z, fold_left (fun z c => (10 * z + (Z.of_N c - 48))%Z) b z = (z * 10 ^ Z.of_nat (length b) + decimal_of b)%Z.
Proof.
  unfold decimal_of. induction b as [|c b IH]; intro z; cbn [fold_left length]; [rewrite Z.mul_1_r; lia|].
  rewrite IH, (IH (10 * 0 + (Z.of_N c - 48))%Z), Nat2Z.inj_succ, Z.pow_succ_r by lia. ring.
Qed.

Lemma decimal_app : forall a b, decimal_of (a ++ b) = (decimal_of a * 10 ^ Z.of_nat (length b) + decimal_of b)%Z.
Proof. intros a b. unfold decimal_of at 1. rewrite fold_left_app. apply decimal_app_from. Qed.

Lemma fraction_within : forall fs, digits fs -> (length fs <= 30)%nat ->
  let q := inject_Z (decimal_of fs) * ten ^ (- Z.of_nat (length fs)) in
  within (f32_div (f32_digits fs) (f32_pow10 fs)) q (7 * Z.of_nat (length fs) + 2) /\ (q == 0 \/ two ^ (-120) <= q) /\ q < 1.
Proof.
  intros fs Hfs Hl q. destruct (digits_read fs Hfs ltac:(lia)) as [A B]. pose proof (pow_read fs ltac:(lia)) as P.
  set (n := Z.of_nat (length fs)) in *. assert (Hn : (0 <= n <= 30)%Z) by lia.
  assert (Et : ten ^ (- n) == / inject_Z (10 ^ n)) by (rewrite Qpower_opp, ten_Z by lia; reflexivity).
  assert (L1 : (1 <= 10 ^ n)%Z) by lia. pose proof (Q_of_pos (10 ^ n) ltac:(lia)) as Pp.
  assert (Q1 : q < 1).
  { unfold q. rewrite Et. apply Qlt_shift_div_r; [exact Pp|]. rewrite Qmult_1_l. rewrite <- Zlt_Qlt. lia. }
  destruct A as [[A1 A2]|[A1 A2]].
  - assert (Eq : 0 == q) by (unfold q; rewrite A1; reflexivity). split; [|split; [left; symmetry; exact Eq|exact Q1]].
    apply (within_eq _ 0 _ _ Eq). rewrite A2. assert (E : f32_div (S754_zero false) (f32_pow10 fs) = S754_zero false) by (destruct P as [(m & e & -> & _) _]; reflexivity).
    rewrite E. apply within_zero.
  - assert (N1 : (1 <= n)%Z).
    { destruct (Z.eq_dec n 0) as [E0|]; [|lia]. rewrite E0 in B. cbn in B. lia. }
    destruct (quotient (f32_digits fs) (f32_pow10 fs) (decimal_of fs) n ltac:(lia) ltac:(lia) A2 P) as [D1 D2].
    assert (F1 : 1 <= inject_Z (decimal_of fs)) by (change 1 with (inject_Z 1); apply Q_of_le; lia).
    assert (Q2 : two ^ (-120) <= q).
    { unfold q. rewrite Et. apply Qle_shift_div_l; [exact Pp|]. apply Qle_trans with 1; [|exact F1].
      assert (L30 : inject_Z (10 ^ n) <= inject_Z (10 ^ 30)) by (apply Q_of_le, Z.pow_le_mono_r; lia).
      apply Qle_trans with (two ^ (-120) * inject_Z (10 ^ 30)); [|vm_compute; discriminate]. apply Qmult_le_l; [vm_compute; reflexivity|exact L30]. }
    split; [|split; [right; exact Q2|exact Q1]]. split; [apply normal_finite; exact D1|]. split; [exact D2|]. split; [|auto].
    intro E0. rewrite E0 in Q2. exfalso. apply Q2. vm_compute. reflexivity.
Qed.

Lemma fp_general : forall sg ds p fs rest, Forall sign sg -> digits ds -> digits fs -> p = 46%N \/ p = 44%N -> not_next digit rest ->
  floating_point (sg ++ ds ++ p :: fs ++ rest) =
  (Ok (f32_mul (f32_of_Z (if negative sg then -1 else 1)%Z) (f32_add (f32_digits ds) (f32_div (f32_digits fs) (f32_pow10 fs)))), rest).
Proof.
  intros sg ds p fs rest Hsg Hds Hfs Hp Hn. unfold floating_point, bind, get, ret, put.
  assert (Hns : not_next sign (ds ++ p :: fs ++ rest)).
  { destruct ds as [|c ds]; cbn; unfold sign.
    - destruct Hp; subst; intros [?|[?|?]]; try lia; discriminate.
    - inversion Hds; subst. unfold digit in *. intros [?|[?|Hw]]; try lia.
      unfold is_ws in Hw. repeat (apply orb_prop in Hw as [Hw|Hw]); rewrite ?andb_true_iff, ?N.leb_le, ?N.eqb_eq in Hw; lia. }
  rewrite signs_app by assumption. rewrite (span_while_app is_digit digit is_digit_iff).
  - replace (N.eqb p 46 || N.eqb p 44)%bool with true by (destruct Hp; subst; reflexivity).
    rewrite (span_while_app is_digit digit is_digit_iff) by assumption. reflexivity.
  - exact Hds.
  - destruct Hp; subst; cbn; unfold digit; lia.
Qed.

(** The bound on the error. *)
Definition slack (t : str) : Q := inject_Z (Z.of_nat (length t) + 1) * (1 # 2097152).

Lemma slack_ge : forall t q k, 0 <= q -> (k <= 7 * Z.of_nat (length t) + 8)%Z -> q * (inject_Z k * ulp) <= q * slack t.
Proof.
  intros t q k Hq Hk. unfold slack. assert (L : inject_Z k <= inject_Z (Z.of_nat (length t) + 1) * (8 # 1)) by (change (8 # 1) with (inject_Z 8); rewrite <- inject_mul; apply Q_of_le; lia).
  set (a := inject_Z k) in *. set (b := inject_Z _) in *. clearbody a b. nra.
Qed.

Lemma number_read : forall sg t q rest, Forall sign sg -> number t q -> (length t <= 30)%nat -> not_next numeric rest ->
  exists x, floating_point (sg ++ t ++ rest) = (Ok x, rest) /\ finite x /\ Qabs (value x - signed (negative sg) q) <= q * slack t /\ 0 <= q < inject_Z (10 ^ 31).
Proof.
  intros sg t q rest Hsg Ht Hl Hn. destruct Ht as [a Ha Hd|a p b Hp Hda Hdb].
  - rewrite fp_value; [|exact Hsg|exact Hd|apply digits_not_sign; assumption|exact Hn].
    destruct (digits_read a Hd ltac:(lia)) as [A B]. eexists. split; [reflexivity|].
    assert (L36 : (10 ^ Z.of_nat (length a) <= 10 ^ 30)%Z) by (apply Z.pow_le_mono_r; lia).
    assert (Q0 : 0 <= inject_Z (decimal_of a)) by (change 0 with (inject_Z 0); apply Q_of_le; lia).
    assert (Q2 : inject_Z (decimal_of a) < inject_Z (10 ^ 31)) by (rewrite <- Zlt_Qlt; lia).
    destruct (signed_within (negative sg) (f32_digits a) (inject_Z (decimal_of a)) (4 * Z.of_nat (length a))) as [S1 S2]; [lia|exact Q0| | |apply approx_within; [lia|exact A]|].
    + apply Qlt_trans with (inject_Z (10 ^ 31)); [exact Q2|vm_compute; reflexivity].
    + destruct (Z.eq_dec (decimal_of a) 0) as [E0|N0]; [left; rewrite E0; reflexivity|right]. apply Qle_trans with (inject_Z 1); [vm_compute; discriminate|apply Q_of_le; lia].
    + split; [exact S1|]. split; [|split; [exact Q0|exact Q2]]. apply (Qle_trans _ _ _ S2). apply slack_ge; [exact Q0|lia].
  - rewrite app_length in Hl. cbn [length] in Hl. rewrite <- app_assoc. cbn [app].
    rewrite fp_general; [|exact Hsg|exact Hda|exact Hdb|exact Hp|destruct rest; [exact I|]; cbn in Hn |- *; unfold numeric in Hn; tauto].
    destruct (digits_read a Hda ltac:(lia)) as [A B]. destruct (fraction_within b Hdb ltac:(lia)) as [C [D E]]. cbv zeta in C, D, E.
    assert (L36 : (10 ^ Z.of_nat (length a) <= 10 ^ 30)%Z) by (apply Z.pow_le_mono_r; lia).
    assert (Eq : inject_Z (decimal_of (a ++ b)) * ten ^ (- Z.of_nat (length b)) == inject_Z (decimal_of a) + inject_Z (decimal_of b) * ten ^ (- Z.of_nat (length b))).
    { rewrite decimal_app, inject_Z_plus, inject_mul. assert (Et : ten ^ (- Z.of_nat (length b)) == / inject_Z (10 ^ Z.of_nat (length b))) by (rewrite Qpower_opp, ten_Z by lia; reflexivity).
      rewrite Et. pose proof (Q_of_pos (10 ^ Z.of_nat (length b)) ltac:(lia)) as Pp. field. intro N0. rewrite N0 in Pp. discriminate. }
    set (f := inject_Z (decimal_of b) * ten ^ (- Z.of_nat (length b))) in *.
    assert (Q0 : 0 <= inject_Z (decimal_of a)) by (change 0 with (inject_Z 0); apply Q_of_le; lia).
    assert (Q1 : inject_Z (decimal_of a) == 0 \/ 1 <= inject_Z (decimal_of a)).
    { destruct (Z.eq_dec (decimal_of a) 0) as [E0|N0]; [left; rewrite E0; reflexivity|right]. change 1 with (inject_Z 1). apply Q_of_le. lia. }
    assert (F0 : 0 <= f) by (destruct D as [D|D]; [rewrite D; discriminate|]; apply Qle_trans with (two ^ (-120)); [vm_compute; discriminate|exact D]).
    assert (Q2 : inject_Z (decimal_of a) < inject_Z (10 ^ 30)) by (rewrite <- Zlt_Qlt; lia).
    pose proof (approx_within (f32_digits a) (decimal_of a) _ (proj1 B) A) as W.
    assert (W2 : within (f32_add (f32_digits a) (f32_div (f32_digits b) (f32_pow10 b))) (inject_Z (decimal_of a) + f) (4 * Z.of_nat (length a) + (7 * Z.of_nat (length b) + 2) + 2)).
    { apply sum_within; [lia|lia|exact Q1| |exact D| |exact W|exact C].
      - apply Qlt_trans with (inject_Z (10 ^ 30)); [exact Q2|vm_compute; reflexivity].
      - apply Qlt_trans with 1; [exact E|vm_compute; reflexivity]. }
    eexists. split; [reflexivity|].
    assert (Q3 : inject_Z (decimal_of a) + f < inject_Z (10 ^ 31)).
    { apply Qlt_trans with (inject_Z (10 ^ 30) + 1); [set (z := inject_Z (10 ^ 30)) in *; clearbody z; lra|vm_compute; reflexivity]. }
    assert (G0 : 0 <= inject_Z (decimal_of a) + f) by lra.
    destruct (signed_within (negative sg) (f32_add (f32_digits a) (f32_div (f32_digits b) (f32_pow10 b))) (inject_Z (decimal_of a) + f) (4 * Z.of_nat (length a) + (7 * Z.of_nat (length b) + 2) + 2) ltac:(lia) G0 ltac:(apply Qlt_trans with (inject_Z (10 ^ 31)); [exact Q3|vm_compute; reflexivity]) ltac:(destruct Q1 as [Q1|Q1]; [destruct D as [D|D]; [left; rewrite Q1, D; reflexivity|right; rewrite Q1, Qplus_0_l; exact D]|right; apply Qle_trans with 1; [vm_compute; discriminate|lra]]) W2) as [S1 S2].
    split; [exact S1|]. split; [|rewrite Eq; split; [exact G0|exact Q3]].
    assert (Es : signed (negative sg) (inject_Z (decimal_of (a ++ b)) * ten ^ (- Z.of_nat (length b))) == signed (negative sg) (inject_Z (decimal_of a) + f)) by (destruct (negative sg); cbn [signed]; rewrite Eq; reflexivity).
    rewrite Es, Eq. apply (Qle_trans _ _ _ S2). apply slack_ge; [exact G0|]. rewrite app_length. cbn [length]. lia.
Qed.

(** A space after the unit is read too. *)
Definition tail (sp rest : str) : Prop := (sp = [] /\ not_next (fun c => is_ws c = true) rest) \/ sp = [32%N].

Lemma dimension_read : forall sg t q ws u d sp rest, Forall sign sg -> number t q -> (length t <= 30)%nat ->
  forallb is_ws ws = true -> In (u, d) units -> tail sp rest ->
  exists x, lex_dimension (sg ++ t ++ ws ++ u ++ sp ++ rest) = (Ok (mkDim x d), rest) /\ finite x /\
  Qabs (value x - signed (negative sg) q) <= q * slack t /\ 0 <= q < inject_Z (10 ^ 31).
Proof.
  intros sg t q ws u d sp rest Hsg Ht Hl Hws Hu Hsp.
  destruct (number_read sg t q (ws ++ u ++ sp ++ rest) Hsg Ht Hl (ws_unit_head ws u d _ Hws Hu)) as (x & X1 & X2).
  exists x. split; [|exact X2]. unfold lex_dimension, bind at 1. rewrite X1. unfold bind at 1. rewrite (unit_read ws u d (sp ++ rest) Hws Hu).
  destruct Hsp as [[-> Hr]| ->].
  - cbn [app]. rewrite no_space by exact Hr. reflexivity.
  - reflexivity.
Qed.

(** What is written for the length read. *)
Lemma length_told : forall sg t q ws u d sp rest, Forall sign sg -> number t q -> (length t <= 30)%nat ->
  forallb is_ws ws = true -> In (u, d) units -> tail sp rest ->
  exists l t' q', lex_dimension (sg ++ t ++ ws ++ u ++ sp ++ rest) = (Ok l, rest) /\
  dim_display l = (t' ++ fst (told d))%list /\ decimal t' q' /\
  Qabs (q' - signed (negative sg) q * snd (told d)) <= q * snd (told d) * (slack t + (1 # 2097152)) + two ^ (-148).
Proof.
  intros sg t q ws u d sp rest Hsg Ht Hl Hws Hu Hsp. destruct (dimension_read sg t q ws u d sp rest Hsg Ht Hl Hws Hu Hsp) as (x & X1 & X2 & X3 & X4 & X5).
  assert (S0 : 0 <= slack t) by (unfold slack; assert (0 <= inject_Z (Z.of_nat (length t) + 1)) by (change 0 with (inject_Z 0); apply Q_of_le; lia); nra).
  assert (S1 : slack t <= 31 # 2097152).
  { unfold slack. assert (inject_Z (Z.of_nat (length t) + 1) <= 31 # 1) by (change (31 # 1) with (inject_Z 31); apply Q_of_le; lia). lra. }
  set (s := slack t) in *. clearbody s.
  assert (Sq : Qabs (signed (negative sg) q) == q) by (destruct (negative sg); cbn [signed]; [rewrite Qabs_opp|]; apply Qabs_pos; exact X4).
  set (g := signed (negative sg) q) in *. clearbody g.
  assert (V : Qabs (value x) <= q * (1 + s)).
  { setoid_replace (value x) with ((value x - g) + g) by ring. apply (Qle_trans _ _ _ (Qabs_triangle _ _)). rewrite Sq. lra. }
  destruct (units_told x d X2) as (t' & q' & T1 & T2 & T3).
  { apply Qle_lt_trans with (inject_Z (10 ^ 31) * (2 # 1)); [|vm_compute; reflexivity]. apply (Qle_trans _ _ _ V). set (z := inject_Z (10 ^ 31)) in *. clearbody z. nra. }
  exists (mkDim x d), t', q'. split; [exact X1|]. split; [exact T1|]. split; [exact T2|].
  assert (R : 0 <= snd (told d)) by (destruct d; discriminate). set (r := snd (told d)) in *. clearbody r.
  rewrite (Qabs_Qmult (value x) r), (Qabs_pos r R) in T3.
  setoid_replace (q' - g * r) with ((q' - value x * r) + (value x - g) * r) by ring. apply (Qle_trans _ _ _ (Qabs_triangle _ _)).
  rewrite (Qabs_Qmult (value x - g) r), (Qabs_pos r R).
  set (vx := Qabs (value x)) in *. set (er := Qabs (value x - g)) in *. set (w := Qabs (q' - value x * r)) in *. set (c := two ^ (-148)) in *. clearbody vx er w c.
  assert (M1 : vx * r <= q * (1 + s) * r) by nra. assert (M2 : er * r <= q * s * r) by nra.
  assert (Qr : 0 <= q * r) by nra. assert (M3 : q * (1 + s) * r <= q * r * (2 # 1)) by nra.
  setoid_replace (q * r * (s + (1 # 2097152))) with (q * s * r + (q * r) * (1 # 2097152)) by ring.
  set (qr := q * r) in *. set (y := q * s * r) in *. clearbody qr y. lra.
Qed.
