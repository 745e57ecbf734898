(** * FloatRound: the product of two [f32] is the rounded product. *)

From Coq Require Import List NArith ZArith QArith Qpower Qabs Bool Lia Lqa Floats.SpecFloat.
From Verif Require Import Base Float32 FloatFacts Event SpecNum SpecDimension DisplayFacts FloatShow.
Import ListNotations.
Open Scope Z_scope.

(** ** Shifting *)

Lemma nat_iter_S : forall n A (f : A -> A) x, Nat.iter (S n) f x = f (Nat.iter n f x).
Proof. reflexivity. Qed.

Lemma iter_pos_nat : forall A (f : A -> A) p x, iter_pos f p x = Nat.iter (Pos.to_nat p) f x.
Proof.
  intros A f. assert (Add : forall a b x, Nat.iter (a + b) f x = Nat.iter a f (Nat.iter b f x)) by (induction a as [|a IHa]; intros b x; [reflexivity|cbn [Nat.add]; rewrite (nat_iter_S (a + b)%nat A f x), IHa; reflexivity]).
  induction p as [p IH|p IH|]; intro x; cbn [iter_pos].
  - rewrite !IH, Pos2Nat.inj_xI. replace (S (2 * Pos.to_nat p))%nat with (Pos.to_nat p + (Pos.to_nat p + 1))%nat by lia. now rewrite !Add.
  - rewrite !IH, Pos2Nat.inj_xO. replace (2 * Pos.to_nat p)%nat with (Pos.to_nat p + Pos.to_nat p)%nat by lia. now rewrite Add.
  - reflexivity.
Qed.

(** The record holds the whole part of [x / (k * 2^n)] and how the rest compares
    with the half. *)
Definition holds (k x n : Z) (r : shr_record) : Prop :=
  0 <= shr_m r /\ exists d, x = shr_m r * (2 ^ n * k) + d /\ 0 <= d < 2 ^ n * k /\
  match shr_r r, shr_s r with
  | false, false => d = 0
  | false, true => 0 < d /\ 2 * d < 2 ^ n * k
  | true, false => 2 * d = 2 ^ n * k
  | true, true => 2 ^ n * k < 2 * d
  end.

Lemma holds_step : forall k x n r, 0 <= n -> 0 < k -> holds k x n r -> holds k x (n + 1) (shr_1 r).
Proof.
  intros k x n [m b c] Hn Hk (H0 & d & H1 & H2 & H3). cbn [shr_m shr_r shr_s] in *.
  assert (P : 0 < 2 ^ n * k) by (apply Z.mul_pos_pos; [apply Z.pow_pos_nonneg; lia|lia]). assert (E : 2 ^ (n + 1) * k = 2 * (2 ^ n * k)) by (rewrite Z.pow_add_r by lia; change (2 ^ 1) with 2; ring).
  unfold holds. rewrite E. set (t := 2 ^ n * k) in *. clearbody t.
  destruct m as [|[p|p|]|p]; cbn [shr_1 shr_m shr_r shr_s]; try lia; (split; [lia|]).
  - exists d. destruct b, c; cbn [orb] in *; lia.
  - exists (t + d). destruct b, c; cbn [orb] in *; lia.
  - exists d. destruct b, c; cbn [orb] in *; lia.
  - exists (t + d). destruct b, c; cbn [orb] in *; lia.
Qed.

Lemma holds_iter : forall k x r n j, 0 <= j -> 0 < k -> holds k x j r -> holds k x (j + Z.of_nat n) (Nat.iter n shr_1 r).
Proof.
  induction n as [|n IH]; intros j Hj Hk H; [cbn; now rewrite Z.add_0_r|]. rewrite nat_iter_S.
  replace (j + Z.of_nat (S n)) with (j + Z.of_nat n + 1) by lia. apply holds_step; [lia|exact Hk|]. apply IH; assumption.
Qed.

Lemma round_holds : forall k x n r, 0 <= n -> 0 < k -> holds k x n r ->
  let z := round_nearest_even (shr_m r) (loc_of_shr_record r) in
  shr_m r <= z <= shr_m r + 1 /\ 2 * Z.abs (z * (2 ^ n * k) - x) <= 2 ^ n * k.
Proof.
  intros k x n [m b c] Hn Hk (H0 & d & H1 & H2 & H3). cbn [shr_m shr_r shr_s] in *. cbv zeta.
  assert (P : 0 < 2 ^ n * k) by (apply Z.mul_pos_pos; [apply Z.pow_pos_nonneg; lia|lia]). set (t := 2 ^ n * k) in *. clearbody t.
  destruct b, c; cbn [loc_of_shr_record round_nearest_even]; [| |split; nia|split; nia].
  - split; nia.
  - destruct (Z.even m); split; nia.
Qed.

(** ** Rounding *)

Definition target (x e : Z) : Z := Z.max (dig x + e - 24) (-149).

Lemma shr_fexp_holds : forall k v x e l, 0 < k -> 0 < x -> e <= target x e -> holds k v 0 (shr_record_of_loc x l) ->
  exists r, shr_fexp prec32 emax32 x e l = (r, target x e) /\ holds k v (target x e - e) r.
Proof.
  intros k v x e l Hk Hx Ht H0. unfold shr_fexp. fold (dig x). assert (Ef : fexp prec32 emax32 (dig x + e) = target x e) by reflexivity. rewrite Ef.
  unfold shr. destruct (target x e - e) as [|p|p] eqn:E; [| |lia].
  - eexists. split; [f_equal; lia|exact H0].
  - eexists. split; [f_equal; lia|]. rewrite iter_pos_nat. rewrite <- positive_nat_Z. apply (holds_iter k v _ _ 0); [lia|exact Hk|exact H0].
Qed.

Open Scope Q_scope.

Lemma Q_of_pos : forall k, (0 < k)%Z -> 0 < inject_Z k.
Proof. intros k H. change 0 with (inject_Z 0). rewrite <- Zlt_Qlt. exact H. Qed.

(** The number [v / k * 2^e], of which [x] is the whole part, is rounded. *)
Lemma round_spec : forall s k v x e l, (0 < k)%Z -> (0 < x)%Z -> (x * k <= v < (x + 1) * k)%Z -> holds k v 0 (shr_record_of_loc x l) ->
  (e <= target x e)%Z -> (dig x + e <= 127)%Z ->
  let y := binary_round_aux prec32 emax32 s x e l in let w := inject_Z v / inject_Z k * two ^ e in
  finite y /\ Qabs (signed s (value y) - w) <= w * (1 # 16777216) + two ^ (-150) /\
  ((-125 <= dig x + e)%Z -> Qabs (signed s (value y) - w) <= w * (1 # 16777216)).
Proof.
  intros s k v x e l Hk Hx0 Hv H0 Ht He. cbv zeta.
  destruct (dig_spec x Hx0) as [D1 D2].
  destruct (shr_fexp_holds k v x e l Hk Hx0 Ht H0) as (r & Er & Hr). unfold binary_round_aux. rewrite Er.
  pose proof (round_holds k v (target x e - e) r ltac:(lia) Hk Hr) as [R1 R2]. cbv zeta in R1, R2.
  set (z := round_nearest_even (shr_m r) (loc_of_shr_record r)) in *. clearbody z.
  set (n := (target x e - e)%Z) in *. assert (Hn : (0 <= n)%Z) by lia. set (e1 := target x e) in *. assert (E1 : (e1 = e + n)%Z) by (unfold n; lia).
  assert (Pn : (0 < 2 ^ n)%Z) by (apply Z.pow_pos_nonneg; lia).
  destruct Hr as (M0 & d & M1 & M2 & _).
  assert (B1 : (shr_m r < 2 ^ 24)%Z).
  { assert (x + 1 <= 2 ^ 24 * 2 ^ n)%Z; [|nia]. rewrite <- Z.pow_add_r by lia. apply Z.le_trans with (2 ^ dig x)%Z; [lia|]. apply Z.pow_le_mono_r; [lia|]. unfold n, e1, target. lia. }
  assert (B2 : (2 ^ 23 <= shr_m r \/ e1 = -149)%Z).
  { destruct (Z.eq_dec e1 (-149)) as [E|E]; [auto|left]. assert (En : (n = dig x - 24)%Z) by (unfold n; unfold e1, target in *; lia).
    assert (2 ^ 23 * 2 ^ n <= x)%Z; [|nia]. rewrite <- Z.pow_add_r by lia. replace (23 + n)%Z with (dig x - 1)%Z by lia. lia. }
  assert (E1b : (-149 <= e1 <= 103)%Z) by (unfold e1, target; lia).
  pose proof (Q_of_pos k Hk) as Qk. set (w := inject_Z v / inject_Z k * two ^ e).
  (* the error *)
  assert (Lw : inject_Z x * two ^ e <= w).
  { unfold w. pose proof (two_pos e) as Pe. apply (Qmult_le_r _ _ _ Pe). apply Qle_shift_div_l; [exact Qk|]. rewrite <- inject_mul. apply Q_of_le. lia. }
  assert (Err0 : Qabs (inject_Z z * two ^ e1 - w) <= two ^ (e1 - 1)).
  { assert (Ez : (inject_Z z * two ^ e1 - w) * inject_Z k == inject_Z (z * (2 ^ n * k) - v) * two ^ e).
    { unfold w. rewrite E1, Z_times by lia. unfold Z.sub. rewrite inject_Z_plus, inject_Z_opp, !inject_mul. field. intro N. rewrite N in Qk. discriminate. }
    apply (Qmult_le_r _ _ _ Qk). rewrite <- (Qabs_pos (inject_Z k)) at 1 by (apply Qlt_le_weak; exact Qk). rewrite <- Qabs_Qmult, Ez.
    rewrite Qabs_Qmult. rewrite (Qabs_pos (two ^ e)) by (apply Qlt_le_weak, two_pos).
    assert (Eb : Qabs (inject_Z (z * (2 ^ n * k) - v)) == inject_Z (Z.abs (z * (2 ^ n * k) - v))) by reflexivity. rewrite Eb.
    assert (L : two * inject_Z (Z.abs (z * (2 ^ n * k) - v)) <= two ^ n * inject_Z k).
    { rewrite <- two_Z by lia. change two with (inject_Z 2). rewrite <- !inject_mul. apply Q_of_le. exact R2. }
    pose proof (half_e e1) as Hh. rewrite E1, two_add in Hh. rewrite E1 in *. pose proof (two_pos e). set (w' := two ^ (e + n - 1)) in *. clearbody w'. set (A := inject_Z (Z.abs _)) in *. clearbody A.
    set (T := two ^ n) in *. clearbody T. set (U := two ^ e) in *. clearbody U. set (K := inject_Z k) in *. clearbody K.
    assert (X1 : two * A * U <= T * K * U) by nra. nra. }
  assert (Rel : (-149 <= dig x + e - 24)%Z -> two ^ (e1 - 1) <= w * (1 # 16777216)).
  { intro G. unfold e1, target. rewrite Z.max_l by exact G.
    replace (dig x + e - 24 - 1)%Z with ((dig x - 1) + (e + -24))%Z by lia. rewrite (two_add (dig x - 1)), (two_add e), <- (two_Z (dig x - 1)) by lia. change (two ^ (-24)) with (1 # 16777216).
    pose proof (two_pos e) as Pe. assert (L3 : inject_Z (2 ^ (dig x - 1)) <= inject_Z x) by (apply Q_of_le; lia). set (A := inject_Z (2 ^ (dig x - 1))) in *. clearbody A. nra. }
  assert (Pw : 0 <= w) by (eapply Qle_trans; [|exact Lw]; apply Qmult_le_0_compat; [apply Qlt_le_weak, Q_of_pos; lia|apply Qlt_le_weak, two_pos]).
  assert (Err : Qabs (inject_Z z * two ^ e1 - w) <= w * (1 # 16777216) + two ^ (-150)).
  { apply (Qle_trans _ _ _ Err0). destruct (Z_le_gt_dec (-149) (dig x + e - 24)) as [G|G].
    - pose proof (Rel G). pose proof (two_pos (-150)) as P150. set (w' := two ^ (-150)) in *. clearbody w'. lra.
    - unfold e1, target. rewrite Z.max_r by lia. change (-149 - 1)%Z with (-150)%Z. set (w' := two ^ (-150)) in *. clearbody w'. lra. }
  assert (Err' : (-125 <= dig x + e)%Z -> Qabs (inject_Z z * two ^ e1 - w) <= w * (1 # 16777216)).
  { intro G. apply (Qle_trans _ _ _ Err0). apply Rel. lia. }
  cut (let y := (let '(mrs'', e'') := shr_fexp prec32 emax32 z e1 loc_Exact in match shr_m mrs'' with 0%Z => S754_zero s | Zpos m => if Zle_bool e'' (emax32 - prec32) then S754_finite s m e'' else S754_infinity s | _ => S754_nan end) in
    finite y /\ signed s (value y) == inject_Z z * two ^ e1).
  { cbv zeta. set (y := let '(_, _) := _ in _). intros [F E]. split; [exact F|]. rewrite E. split; [exact Err|exact Err']. }
  cbv zeta. clear Err Err' Err0 Rel.
  destruct (Z.eq_dec z 0) as [Ez0|Ez0].
  { rewrite Ez0 in *. cbn [shr_fexp Zdigits2 shr_record_of_loc]. unfold shr_fexp, shr. cbn [Zdigits2 shr_record_of_loc].
    assert (E0 : forall p, (shr_m (iter_pos shr_1 p (Build_shr_record 0 false false)) = 0)%Z) by (intro p; rewrite shr_iter_m by (cbn; lia); cbn [shr_m]; apply Z.div_0_l, Z.pow_nonzero; lia).
    destruct (fexp prec32 emax32 (0 + e1) - e1)%Z; cbn [shr_m]; rewrite ?E0; (split; [exact I|]); cbn [value].
    all: destruct s; cbn [signed]; change (inject_Z 0) with 0; ring. }
  assert (Hz : (0 < z)%Z) by lia.
  destruct (Z.eq_dec z (2 ^ 24)) as [Ez|Ez].
  - (* the carry *)
    rewrite Ez in *. unfold shr_fexp. change (Zdigits2 (2 ^ 24)) with 25%Z. assert (Ef : fexp prec32 emax32 (25 + e1) = (e1 + 1)%Z) by (unfold fexp, emin, prec32, emax32; lia).
    rewrite Ef. replace (e1 + 1 - e1)%Z with 1%Z by lia. cbn [shr_record_of_loc]. change (shr (Build_shr_record (2 ^ 24) false false) e1 1) with (Build_shr_record 8388608 false false, (e1 + 1)%Z).
    cbn [shr_m]. change (emax32 - prec32)%Z with 104%Z. destruct (Zle_bool (e1 + 1) 104) eqn:El; [|apply Z.leb_gt in El; lia].
    split; [split; [reflexivity|split; [lia|left; vm_compute; congruence]]|].
    assert (P1 : two ^ (e1 + 1) == two ^ e1 * two) by (rewrite two_add; reflexivity). cbn [value]. destruct s; cbn [signed]; rewrite P1; change (inject_Z 8388608) with (8388608 # 1); change (inject_Z (2 ^ 24)) with (16777216 # 1); ring.
  - assert (Dz : (1 <= dig z <= 24)%Z) by (apply dig_24; lia).
    unfold shr_fexp. fold (dig z). cbn [shr_record_of_loc].
    assert (Ef : (fexp prec32 emax32 (dig z + e1) - e1 <= 0)%Z) by (unfold fexp, emin, prec32, emax32; lia).
    unfold shr. destruct (fexp prec32 emax32 (dig z + e1) - e1)%Z as [|j|j]; [| lia|]; cbn [shr_m].
    all: destruct z as [|p|p]; try lia; change (emax32 - prec32)%Z with 104%Z; destruct (Zle_bool e1 104) eqn:El; [|apply Z.leb_gt in El; lia].
    all: split; [split; [lia|split; [lia|]]|].
    1,3: destruct B2 as [B2|B2]; [left; lia|right; exact B2].
    all: cbn [value]; destruct s; cbn [signed]; ring.
Qed.

Lemma holds_exact : forall x, (0 < x)%Z -> holds 1 x 0 (shr_record_of_loc x loc_Exact).
Proof. intros x Hx. split; [cbn; lia|]. exists 0%Z. cbn. lia. Qed.

Lemma target_24 : forall x e, (2 ^ 23 <= x)%Z -> (e <= target x e)%Z.
Proof.
  intros x e Hx. destruct (dig_spec x ltac:(pose proof (Z.pow_pos_nonneg 2 23); lia)) as [D1 D2]. assert (D3 : (24 <= dig x)%Z).
  { destruct (Z_lt_le_dec (dig x) 24) as [L|L]; [|exact L]. exfalso. assert (2 ^ dig x <= 2 ^ 23)%Z by (apply Z.pow_le_mono_r; lia). lia. }
  unfold target. lia.
Qed.

Lemma round_exact_spec : forall s x e, (0 < x)%Z -> (e <= target x e)%Z -> (dig x + e <= 127)%Z ->
  let y := binary_round_aux prec32 emax32 s x e loc_Exact in let v := inject_Z x * two ^ e in
  finite y /\ Qabs (signed s (value y) - v) <= v * (1 # 16777216) + two ^ (-150) /\ ((-125 <= dig x + e)%Z -> Qabs (signed s (value y) - v) <= v * (1 # 16777216)).
Proof.
  intros s x e Hx Ht He. pose proof (round_spec s 1 x x e loc_Exact ltac:(lia) Hx ltac:(lia) (holds_exact x Hx) Ht He) as H. cbv zeta in *.
  assert (E : inject_Z x / inject_Z 1 * two ^ e == inject_Z x * two ^ e) by (change (inject_Z 1) with 1; field). rewrite E in H. exact H.
Qed.

(** ** Products with the constants *)

Lemma dig_mul_le : forall a b, (0 < a)%Z -> (0 < b)%Z -> (dig (a * b) <= dig a + dig b)%Z.
Proof.
  intros a b Ha Hb. destruct (dig_spec a Ha) as [H1 H2]. destruct (dig_spec b Hb) as [H3 H4].
  destruct (dig_spec (a * b) ltac:(nia)) as [H5 H6]. assert (dig (a * b) - 1 < dig a + dig b)%Z; [|lia].
  apply pow_lt; [lia|]. rewrite Z.pow_add_r by lia. nia.
Qed.

Lemma signed_abs : forall s q, Qabs (signed s q) == Qabs q.
Proof. intros [] q; cbn [signed]; [apply Qabs_opp|reflexivity]. Qed.

Lemma small_dig : forall m e b, (-149 <= e)%Z -> inject_Z (Zpos m) * two ^ e < two ^ b -> (dig (Zpos m) + e <= b)%Z.
Proof.
  intros m e b He H. destruct (dig_spec (Zpos m) ltac:(lia)) as [H1 H2].
  destruct (Z_le_gt_dec (dig (Zpos m) + e) b) as [L|L]; [exact L|exfalso].
  assert (L1 : two ^ b <= two ^ (dig (Zpos m) - 1 + e)) by (apply Qpower_le_compat_l; [lia|discriminate]).
  rewrite (two_add (dig (Zpos m) - 1) e), <- (two_Z (dig (Zpos m) - 1)) in L1 by lia. assert (L2 : inject_Z (2 ^ (dig (Zpos m) - 1)) <= inject_Z (Zpos m)) by (apply Q_of_le; lia).
  pose proof (two_pos e). set (A := inject_Z (2 ^ _)) in *. clearbody A. set (B := two ^ b) in *. clearbody B. set (C := two ^ e) in *. clearbody C. nra.
Qed.

Lemma mul_spec : forall x c k, finite x -> (2 ^ 23 <= Zpos c < 2 ^ 24)%Z -> (k + 24 <= 4)%Z -> Qabs (value x) < two ^ 123 ->
  let y := f32_mul x (S754_finite false c k) in let w := value x * value (S754_finite false c k) in
  finite y /\ Qabs (value y - w) <= Qabs w * (1 # 16777216) + two ^ (-150).
Proof.
  intros [s|s| |s m e] c k Hx Hc Hk Hv; cbv zeta; try contradiction.
  - cbn [f32_mul SFmul]. unfold f32_mul, SFmul. split; [exact I|]. cbn [value]. rewrite !Qmult_0_l. vm_compute. discriminate.
  - unfold f32_mul, SFmul. rewrite xorb_false_r. destruct Hx as (H1 & H2 & H3).
    assert (Pm : 0 < inject_Z (Zpos m) * two ^ e) by (apply Qmult_lt_0_compat; [change 0 with (inject_Z 0); rewrite <- Zlt_Qlt; lia|apply two_pos]).
    assert (Pc : 0 < inject_Z (Zpos c) * two ^ k) by (apply Qmult_lt_0_compat; [change 0 with (inject_Z 0); rewrite <- Zlt_Qlt; lia|apply two_pos]).
    cbn [value signed] in Hv. rewrite signed_abs, Qabs_pos in Hv by (apply Qlt_le_weak; exact Pm).
    pose proof (small_dig m e 123 ltac:(lia) Hv) as Hd. pose proof (dig_24 (Zpos c) ltac:(lia)) as Hdc.
    pose proof (dig_mul_le (Zpos m) (Zpos c) ltac:(lia) ltac:(lia)) as Hdm.
    pose proof (round_exact_spec s (Zpos (m * c)) (e + k)) as Hr. rewrite Pos2Z.inj_mul in *. specialize (Hr ltac:(nia) ltac:(apply target_24; nia) ltac:(lia)). cbv zeta in Hr.
    destruct Hr as (F & R & _). split; [exact F|].
    set (y := binary_round_aux prec32 emax32 s (Zpos m * Zpos c) (e + k) loc_Exact) in *. clearbody y.
    assert (Ew : inject_Z (Zpos m * Zpos c) * two ^ (e + k) == inject_Z (Zpos m) * two ^ e * (inject_Z (Zpos c) * two ^ k)) by (rewrite inject_mul, two_add; ring).
    rewrite Ew in R. cbn [value]. set (a := inject_Z (Zpos m) * two ^ e) in *. set (b := inject_Z (Zpos c) * two ^ k) in *. clearbody a b. cbn [signed].
    assert (Ea : Qabs (signed s a * b) == a * b).
    { rewrite Qabs_Qmult, signed_abs, (Qabs_pos a), (Qabs_pos b) by (apply Qlt_le_weak; assumption). reflexivity. }
    rewrite Ea. assert (Es : Qabs (value y - signed s a * b) == Qabs (signed s (value y) - a * b)).
    { destruct s; cbn [signed]; [|reflexivity]. rewrite <- Qabs_opp. setoid_replace (- (value y - - a * b)) with (- value y - a * b) by ring. reflexivity. }
    rewrite Es. exact R.
Qed.

Lemma near_error : forall x q, finite x -> near x q -> Qabs (q - value x) <= Qabs (value x) * (1 # 16777216) + two ^ (-150).
Proof.
  intros [s|s| |s m e] q H N; try contradiction.
  - cbn [near] in N. cbn [value]. rewrite N. vm_compute. discriminate.
  - cbn [near] in N. cbv zeta in N. destruct H as (H1 & H2 & H3). pose proof (below_le m e) as [B1 B2]. cbn [value].
    assert (Pm : 0 < inject_Z (Zpos m) * two ^ e) by (apply Qmult_lt_0_compat; [change 0 with (inject_Z 0); rewrite <- Zlt_Qlt; lia|apply two_pos]).
    set (v := inject_Z (Zpos m) * two ^ e) in *. rewrite signed_abs, (Qabs_pos v) by (apply Qlt_le_weak; exact Pm).
    assert (Es : Qabs (q - signed s v) == Qabs (signed s q - v)).
    { destruct s; cbn [signed]; [|reflexivity]. rewrite <- Qabs_opp. setoid_replace (- (q - - v)) with (- q - v) by ring. reflexivity. }
    rewrite Es. set (p := signed s q) in *. clearbody p.
    assert (G : two ^ (e - 1) <= v * (1 # 16777216) + two ^ (-150)).
    { destruct H3 as [H3| ->].
      - replace (e - 1)%Z with (e + 23 + -24)%Z by lia. rewrite (two_add (e + 23)), (two_add e). change (two ^ (-24)) with (1 # 16777216).
        assert (L : inject_Z (2 ^ 23) <= inject_Z (Zpos m)) by (apply Q_of_le; exact H3). change (inject_Z (2 ^ 23)) with (two ^ 23) in L.
        pose proof (two_pos (-150)) as P150. pose proof (two_pos e). unfold v. set (w := two ^ (-150)) in *. clearbody w. set (A := two ^ 23) in *. clearbody A. nra.
      - change (-149 - 1)%Z with (-150)%Z. set (w := two ^ (-150)) in *. clearbody w. lra. }
    set (w := two ^ (-150)) in *. clearbody w. apply Qabs_le; lra.
Qed.

(** The text of a product. *)
Lemma product_text : forall x c k r, finite x -> (2 ^ 23 <= Zpos c < 2 ^ 24)%Z -> (k + 24 <= 4)%Z -> Qabs (value x) < two ^ 123 ->
  0 < r -> Qabs (value (S754_finite false c k) - r) <= r * (1 # 16777216) ->
  exists q, decimal (f32_display (f32_mul x (S754_finite false c k))) q /\ Qabs (q - value x * r) <= Qabs (value x * r) * (1 # 4194304) + two ^ (-148).
Proof.
  intros x c k r Hx Hc Hk Hv Hr He. destruct (mul_spec x c k Hx Hc Hk Hv) as [F R]. cbv zeta in R.
  set (y := f32_mul x (S754_finite false c k)) in *. set (cv := value (S754_finite false c k)) in *. clearbody y cv.
  destruct (display_near y F) as (q & Hq & N). exists q. split; [exact Hq|]. pose proof (near_error y q F N) as E.
  set (v := value x) in *. clearbody v. set (yv := value y) in *. clearbody yv.
  assert (E8 : two ^ (-148) == 4 * two ^ (-150)) by reflexivity. rewrite E8. pose proof (two_pos (-150)) as P. set (w := two ^ (-150)) in *. clearbody w.
  (* |v c| and |y| *)
  assert (A1 : Qabs (v * cv - v * r) <= Qabs (v * r) * (1 # 16777216)).
  { setoid_replace (v * cv - v * r) with (v * (cv - r)) by ring. rewrite !Qabs_Qmult. rewrite (Qabs_pos r) by (apply Qlt_le_weak; exact Hr).
    pose proof (Qabs_nonneg v). set (A := Qabs v) in *. clearbody A. set (B := Qabs (cv - r)) in *. clearbody B. nra. }
  assert (T1 : Qabs (v * cv) <= Qabs (v * r) + Qabs (v * cv - v * r)).
  { setoid_replace (v * cv) with (v * r + (v * cv - v * r)) at 1 by ring. apply Qabs_triangle. }
  assert (T2 : Qabs yv <= Qabs (v * cv) + Qabs (yv - v * cv)).
  { setoid_replace yv with (v * cv + (yv - v * cv)) at 1 by ring. apply Qabs_triangle. }
  assert (T3 : Qabs (q - v * r) <= Qabs (q - yv) + Qabs (yv - v * cv) + Qabs (v * cv - v * r)).
  { setoid_replace (q - v * r) with ((q - yv) + (yv - v * cv) + (v * cv - v * r)) by ring.
    eapply Qle_trans; [apply Qabs_triangle|]. pose proof (Qabs_triangle (q - yv) (yv - v * cv)). lra. }
  pose proof (Qabs_nonneg (v * r)) as P0. set (a := Qabs (v * r)) in *. set (b := Qabs (v * cv)) in *. set (cc := Qabs yv) in *. clearbody a b cc.
  set (d1 := Qabs (q - v * r)) in *. set (d2 := Qabs (q - yv)) in *. set (d3 := Qabs (yv - v * cv)) in *. set (d4 := Qabs (v * cv - v * r)) in *. clearbody d1 d2 d3 d4. lra.
Qed.

Lemma plain_text : forall x, finite x -> exists q, decimal (f32_display x) q /\ Qabs (q - value x * 1) <= Qabs (value x * 1) * (1 # 4194304) + two ^ (-148).
Proof.
  intros x F. destruct (display_near x F) as (q & Hq & N). exists q. split; [exact Hq|]. pose proof (near_error x q F N) as E.
  assert (E1 : value x * 1 == value x) by ring. rewrite E1. assert (E8 : two ^ (-148) == 4 * two ^ (-150)) by reflexivity. rewrite E8. pose proof (two_pos (-150)) as P. set (w := two ^ (-150)) in *. clearbody w.
  pose proof (Qabs_nonneg (value x)). set (A := Qabs (value x)) in *. clearbody A. lra.
Qed.

Definition told (u : dim_unit) : str * Q :=
  match u with
  | UMu => (lit "mu", 1 # 18)
  | USp => (lit "pt", 7200 # (65536 * 7227))
  | _ => css u
  end.

Ltac by_product x Hx Hv c k :=
  match goal with |- exists t q, _ /\ _ /\ Qabs (_ - _ * ?r) <= _ =>
    destruct (product_text x c k r Hx) as (q & Q1 & Q2);
    [vm_compute; intuition congruence|lia|exact Hv|reflexivity|vm_compute; congruence|eexists _, q; split; [reflexivity|split; [exact Q1|exact Q2]]]
  end.

Lemma units_told : forall x u, finite x -> Qabs (value x) < two ^ 123 ->
  exists t q, dim_display (mkDim x u) = (t ++ fst (told u))%list /\ decimal t q /\ Qabs (q - value x * snd (told u)) <= Qabs (value x * snd (told u)) * (1 # 4194304) + two ^ (-148).
Proof.
  intros x u Hx Hv. unfold dim_display. cbn [dvalue dunit].
  change bp_per_pt with (S754_finite false 16714537 (-24)). change bp_per_sp with (S754_finite false 16714537 (-40)). change bp_per_dd with (S754_finite false 8942349 (-23)).
  change bp_per_cc with (S754_finite false 13413524 (-20)). change em_per_mu with (S754_finite false 14913081 (-28)).
  destruct u; cbn [told css fst snd]; cbv beta iota.
  all: try (destruct (plain_text x Hx) as (q & Q1 & Q2); eexists _, q; split; [reflexivity|split; [exact Q1|exact Q2]]).
  - by_product x Hx Hv 14913081%positive (-28)%Z.
  - by_product x Hx Hv 16714537%positive (-24)%Z.
  - by_product x Hx Hv 16714537%positive (-24)%Z.
  - by_product x Hx Hv 8942349%positive (-23)%Z.
  - by_product x Hx Hv 13413524%positive (-20)%Z.
  - by_product x Hx Hv 16714537%positive (-40)%Z.
Qed.

Lemma same_text : forall x u, finite x -> snd (css u) == 1 ->
  exists t q, dim_display (mkDim x u) = (t ++ fst (css u))%list /\ decimal t q /\ forall y, finite y -> Qabs (q - value x) <= Qabs (q - value y).
Proof.
  intros x u Hx Hu. destruct (display_near x Hx) as (q & Hq & N). exists (f32_display x), q.
  split; [|split; [exact Hq|intros y Hy; exact (nearest x y q Hx Hy N)]].
  destruct u; try reflexivity; exfalso; vm_compute in Hu; discriminate.
Qed.
