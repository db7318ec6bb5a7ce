(** Context.Add (float/float.go:448-642): the circuit as integer arithmetic. *)
From Coq Require Import ZArith Bool List Lia ZifyBool.
From Verif Require Import Field FieldFacts Circuit Hints RangeCheck Gadget FloatModel
  CircuitFacts RangeFacts GadgetFacts RoundFacts Spec RoundCore RepFacts MulFacts SqrtFacts Tactics.
Local Open Scope Z_scope.

(** The bit scan of [NormalizeHint] on a number of at most [n] bits. *)
Lemma leading_zeros_log2 v n : 0 < v < 2 ^ Z.of_nat n ->
  leading_zeros v n = Z.of_nat n - 1 - Z.log2 v.
Proof.
  induction n as [|n IH]; intros Hv.
  - change (2 ^ Z.of_nat 0) with 1 in Hv. lia.
  - cbn [leading_zeros]. destruct (Z.testbit v (Z.of_nat n)) eqn:Ht.
    + assert (Z.log2 v = Z.of_nat n); [|lia].
      assert (Z.log2 v < Z.of_nat (S n)) by (apply Z.log2_lt_pow2; lia).
      destruct (Z_lt_le_dec (Z.log2 v) (Z.of_nat n)) as [Hl|]; [|lia].
      rewrite Z.bits_above_log2 in Ht by lia. discriminate.
    + rewrite IH; [lia|]. split; [lia|].
      destruct (Z_lt_le_dec v (2 ^ Z.of_nat n)) as [|Hge]; [assumption|].
      assert (Hl : Z.log2 v = Z.of_nat n).
      { apply Z.log2_unique; [lia|]. unfold Z.succ. replace (Z.of_nat n + 1) with (Z.of_nat (S n)) by lia. lia. }
      rewrite <- Hl, Z.bit_log2 in Ht by lia. discriminate.
Qed.

Lemma AbsHint_emb {MOD : Modulus} {b K : Z} {HW : Width b K} z :
  - 2 ^ (K - 2) < z < 2 ^ (K - 2) ->
  AbsHint (emb z) = (Some (Z.b2z (0 <=? z)), Some (Z.abs z)).
Proof.
  intros Hz. width_facts. pose proof (width_big b K HW) as HBig.
  assert (H4 : 2 ^ K = 4 * 2 ^ (K - 2)).
  { change 4 with (2 ^ 2). rewrite <- Z.pow_add_r by lia. f_equal. lia. }
  unfold AbsHint. rewrite Z.shiftr_div_pow2 by lia. change (2 ^ 1) with 2.
  pose proof (Z.div_mod modulus 2 ltac:(lia)).
  pose proof (Z.mod_pos_bound modulus 2 ltac:(lia)).
  destruct (Z.leb_spec 0 z) as [Hs|Hs].
  - rewrite emb_small by lia. destruct (Z.ltb_spec z (modulus / 2)); [|lia].
    rewrite Z.abs_eq by lia. reflexivity.
  - assert (He : emb z = z + modulus).
    { unfold emb. symmetry. apply Z.mod_unique with (-1); lia. }
    rewrite He. destruct (Z.ltb_spec (z + modulus) (modulus / 2)); [lia|].
    cbn [Z.b2z]. do 2 f_equal. lia.
Qed.

(** Signed mantissa. *)
Definition sv (z : zf) : Z := if zs z then - zm z else zm z.

Lemma check_loose_any {MOD : Modulus} {b K : Z} {HW : Width b K} v n :
  1 <= n -> n + b <= K -> 0 <= v < modulus ->
  range_ok b v n Loose -> 0 <= v < 2 ^ capacity b n.
Proof.
  intros Hn Hr Hv H.
  destruct (cap_room (b:=b) (K:=K) n Hn Hr) as (H1 & H2 & H3 & H4 & H5).
  pose proof (width_b (b:=b) (K:=K)). pose proof (width_big b K HW) as HBig.
  apply range_ok_iff in H; [|lia..]. cbn in H. lia.
Qed.

Section AddZ.
Variables E M : Z.
Definition add_D (x y : zf) : Z := Z.max (M + 3 - Z.abs (ze y - ze x)) 0.
Definition add_lo (x y : zf) : Z := if ze x <=? ze y then sv x else sv y.
Definition add_hi (x y : zf) : Z := if ze x <=? ze y then sv y else sv x.
Definition add_s (x y : zf) : Z :=
  add_lo x y * 2 ^ add_D x y + add_hi x y * 2 ^ (M + 3).
Definition add_e (x y : zf) (shift : Z) : Z := Z.max (ze x) (ze y) + 1 - shift.
Definition add_zr (x y : zf) (shift : Z) : Z :=
  zround M (Z.abs (add_s x y) * 2 ^ shift) (2 * M + 5) 0 true.
Definition add_shift (x y : zf) : Z :=
  if add_s x y =? 0 then 0 else 2 * M + 4 - Z.log2 (Z.abs (add_s x y)).
Definition zadd (x y : zf) (c2 : bool) (shift : Z) (pos : bool) : zf :=
  let '(m', e', ab) := zfix (E:=E) (M:=M) (add_zr x y shift) (add_s x y =? 0)
                         (add_e x y shift) (za x || za y) pos in
  mkZ (if Bool.eqb (zs x) (zs y) then zs x else negb c2) e'
    (if za x then (if negb (za y) || (sv x =? sv y) then zm x else 0)
     else if za y then zm y else m') ab.

(** The freedom left to the prover. *)
Definition add_choice (x y : zf) (c2 : bool) (shift : Z) (pos : bool) : Prop :=
  (add_s x y <> 0 -> c2 = (0 <? add_s x y) /\ shift = add_shift x y) /\
  0 <= shift <= M + E /\ fix_pos_ok (E:=E) (M:=M) (add_zr x y shift) (add_e x y shift) pos.
End AddZ.

Section Add.
Context {MOD : Modulus} {E M b : Z} {HP : Params E M b} {HF : Format E M}.
#[local] Instance add_width : Width b (4 * M + 44) := params_width E M b HP.
#[local] Instance add_big : BigMod := width_big b _ add_width.

Notation emax := (Spec.emax E).
Notation emin := (Spec.emin E M).

Section Ops.
Variables x y : zf.
Hypotheses (Hx : zwf (E:=E) (M:=M) x) (Hy : zwf (E:=E) (M:=M) y).

Lemma add_pows :
  2 ^ (M + 3) = 8 * 2 ^ M /\ 2 ^ (2 * M + 3) = 8 * (2 ^ M * 2 ^ M) /\
  2 ^ (2 * M + 4) = 16 * (2 ^ M * 2 ^ M) /\ 2 ^ (2 * M + 5) = 32 * (2 ^ M * 2 ^ M) /\
  2 ^ (2 * M + 5) = 2 * 2 ^ (2 * M + 4) /\ 0 < 2 ^ (2 * M + 4).
Proof.
  params. destruct (fmt_M (E:=E) (M:=M)) as [HM [HM1 HM2]].
  assert (H3 : 2 ^ (M + 3) = 8 * 2 ^ M) by (rewrite Z.pow_add_r by lia; change (2 ^ 3) with 8; ring).
  assert (H2M : 2 ^ (2 * M) = 2 ^ M * 2 ^ M) by (rewrite <- Z.pow_add_r by lia; f_equal; ring).
  assert (H23 : 2 ^ (2 * M + 3) = 8 * (2 ^ M * 2 ^ M))
    by (rewrite Z.pow_add_r, H2M by lia; change (2 ^ 3) with 8; ring).
  assert (H24 : 2 ^ (2 * M + 4) = 16 * (2 ^ M * 2 ^ M))
    by (rewrite Z.pow_add_r, H2M by lia; change (2 ^ 4) with 16; ring).
  assert (H25 : 2 ^ (2 * M + 5) = 32 * (2 ^ M * 2 ^ M))
    by (rewrite Z.pow_add_r, H2M by lia; change (2 ^ 5) with 32; ring).
  pose proof (pow_pos (2 * M + 4) ltac:(lia)).
  repeat split; try assumption. rewrite H24, H25. ring.
Qed.

Lemma sv_range z : zwf (E:=E) (M:=M) z ->
  Z.abs (sv z) = zm z /\ (zm z = 0 \/ 2 ^ M <= zm z) /\ 0 <= zm z < 2 ^ (M + 1).
Proof.
  intros Wz. destruct (fmt_M (E:=E) (M:=M)) as [HM [HM1 HM2]].
  assert (0 <= zm z < 2 ^ (M + 1) /\ (zm z = 0 \/ 2 ^ M <= zm z)) by (destruct Wz; lia).
  unfold sv. destruct (zs z); lia.
Qed.

Lemma add_bounds :
  Z.abs (add_s M x y) < 2 ^ (2 * M + 5) /\
  (add_s M x y <> 0 -> 2 ^ M <= Z.abs (add_s M x y)) /\
  - (2 * emax + M - 1) <= ze y - ze x <= 2 * emax + M - 1 /\
  0 <= add_D M x y <= M + 3.
Proof.
  params. exps E M. destruct (fmt_M (E:=E) (M:=M)) as [HM [HM1 HM2]].
  destruct add_pows as (P3 & P23 & P24 & P25 & _ & _).
  destruct (sv_range x Hx) as (Sx1 & Sx2 & Sx3).
  destruct (sv_range y Hy) as (Sy1 & Sy2 & Sy3).
  assert (HD : 0 <= add_D M x y <= M + 3) by (clear - HM; unfold add_D; Lia.lia).
  assert (Hlo : exists l, Z.abs (add_lo x y) = l /\ (l = 0 \/ 2 ^ M <= l) /\ 0 <= l < 2 ^ (M + 1)).
  { unfold add_lo. destruct (ze x <=? ze y); eauto. }
  assert (Hhi : exists l, Z.abs (add_hi x y) = l /\ (l = 0 \/ 2 ^ M <= l) /\ 0 <= l < 2 ^ (M + 1)).
  { unfold add_hi. destruct (ze x <=? ze y); eauto. }
  destruct Hlo as (lo & Hlo1 & Hlo2 & Hlo3). destruct Hhi as (hi & Hhi1 & Hhi2 & Hhi3).
  assert (HpD : 0 < 2 ^ add_D M x y <= 2 ^ (M + 3)) by (split; [apply pow_pos; lia|apply pow2_mono; lia]).
  split.
  { unfold add_s. rewrite P25, P3, HM2 in *.
    clear - Hlo1 Hlo3 Hhi1 Hhi3 HpD HM1.
    set (d := 2 ^ add_D M x y) in *. set (p := 2 ^ M) in *.
    set (l := add_lo x y) in *. set (h := add_hi x y) in *. clearbody d p l h.
    assert (Z.abs (l * d + h * (8 * p)) <= lo * d + hi * (8 * p)) by nia. nia. }
  split.
  { intros Hs. destruct (Z_le_gt_dec (M + 2) (add_D M x y)) as [HD2|HD2].
    - assert (Hm : exists k, add_s M x y = k * 2 ^ (M + 2)).
      { exists (add_lo x y * 2 ^ (add_D M x y - (M + 2)) + add_hi x y * 2).
        unfold add_s.
        replace (2 ^ add_D M x y) with (2 ^ (add_D M x y - (M + 2)) * 2 ^ (M + 2))
          by (rewrite <- Z.pow_add_r by lia; f_equal; ring).
        replace (2 ^ (M + 3)) with (2 * 2 ^ (M + 2)) by (rewrite <- Z.pow_succ_r by lia; f_equal; ring).
        ring. }
      destruct Hm as [k Hk]. rewrite Hk in *.
      assert (Hq : 2 ^ M <= 2 ^ (M + 2)) by (apply pow2_mono; lia).
      clear - Hs Hq HM1. generalize dependent (2 ^ (M + 2)). generalize dependent (2 ^ M). intros p Hp q Hs Hq.
      assert (k <> 0) by (intros ->; apply Hs; ring).
      rewrite Z.abs_mul. assert (1 <= Z.abs k) by lia. rewrite (Z.abs_eq q) by lia. nia.
    - assert (HpD' : 2 ^ add_D M x y <= 2 ^ (M + 1)) by (apply pow2_mono; lia).
      unfold add_s in *. rewrite P3, HM2 in *.
      clear - Hlo1 Hlo3 Hlo2 Hhi1 Hhi2 Hhi3 HpD HpD' HM1 Hs.
      set (d := 2 ^ add_D M x y) in *. set (p := 2 ^ M) in *.
      set (l := add_lo x y) in *. set (h := add_hi x y) in *. clearbody d p l h.
      destruct Hhi2 as [Hh0|Hh1].
      + assert (h = 0) by lia. subst h. assert (l <> 0) by nia.
        assert (p <= Z.abs l) by lia. nia.
      + assert (Z.abs (l * d) <= lo * (2 * p)) by nia.
        assert (p * (8 * p) <= Z.abs (h * (8 * p))) by nia.
        assert (lo * (2 * p) <= (2 * p) * (2 * p)) by nia. nia. }
  split; [|exact HD].
  destruct Hx as [Hx1 _], Hy as [Hy1 _]. lia.
Qed.

(** The normalised sum. *)
Lemma add_norm : add_s M x y <> 0 ->
  2 ^ (2 * M + 4) <= Z.abs (add_s M x y) * 2 ^ add_shift M x y < 2 ^ (2 * M + 5) /\
  0 <= add_shift M x y <= M + 4.
Proof.
  intros Hs. params. destruct (fmt_M (E:=E) (M:=M)) as [HM [HM1 HM2]].
  destruct add_bounds as (B1 & B2 & _). specialize (B2 Hs).
  unfold add_shift. destruct (Z.eqb_spec (add_s M x y) 0) as [|_]; [contradiction|].
  set (a := Z.abs (add_s M x y)) in *.
  assert (Ha : 0 < a) by lia.
  destruct (Z.log2_spec a Ha) as [L1 L2]. unfold Z.succ in L2.
  assert (Hl1 : M <= Z.log2 a).
  { rewrite <- (Z.log2_pow2 M) by lia. apply Z.log2_le_mono. exact B2. }
  assert (Hl2 : Z.log2 a < 2 * M + 5) by (apply Z.log2_lt_pow2; lia).
  split; [|lia]. set (l := Z.log2 a) in *.
  assert (Q1 : 2 ^ (2 * M + 4) = 2 ^ l * 2 ^ (2 * M + 4 - l)) by (rewrite <- Z.pow_add_r by lia; f_equal; ring).
  assert (Q2 : 2 ^ (2 * M + 5) = 2 ^ (l + 1) * 2 ^ (2 * M + 4 - l)) by (rewrite <- Z.pow_add_r by lia; f_equal; ring).
  pose proof (pow_pos (2 * M + 4 - l) ltac:(lia)).
  rewrite Q1, Q2. clear - L1 L2 H. nia.
Qed.

Lemma add_choice_norm c2 shift pos : add_choice E M x y c2 shift pos ->
  (add_s M x y = 0 /\ Z.abs (add_s M x y) * 2 ^ shift = 0) \/
  (add_s M x y <> 0 /\ 2 ^ (2 * M + 4) <= Z.abs (add_s M x y) * 2 ^ shift < 2 ^ (2 * M + 5)).
Proof.
  intros [H _]. destruct (Z.eq_dec (add_s M x y) 0) as [H0|H0].
  - left. rewrite H0. split; reflexivity.
  - right. split; [exact H0|]. destruct (H H0) as [_ ->]. apply add_norm, H0.
Qed.

Lemma add_round_pre n : 0 <= n < 2 ^ (2 * M + 5) ->
  round_pre (E:=E) (M:=M) n (2 * M + 5) 0 0.
Proof. intros Hn. params. unfold round_pre. repeat split; lia. Qed.

Lemma add_zr_range shift : 
  (add_s M x y = 0 \/ shift = add_shift M x y) -> 0 <= add_zr M x y shift <= 2 ^ (M + 1) /\
  (add_s M x y = 0 -> add_zr M x y shift = 0) /\
  (add_s M x y <> 0 -> 2 ^ M <= add_zr M x y shift).
Proof.
  intros Hs. params. destruct (fmt_M (E:=E) (M:=M)) as [HM [HM1 HM2]].
  destruct (Z.eq_dec (add_s M x y) 0) as [H0|H0].
  - assert (add_zr M x y shift = 0).
    { unfold add_zr. rewrite H0. change (Z.abs 0 * 2 ^ shift) with 0. apply zround_0; lia. }
    lia.
  - destruct Hs as [Hs|Hs]; [contradiction|]. subst shift.
    destruct (add_norm H0) as [Hn Hsh]. unfold add_zr.
    destruct (zround_range (E:=E) (M:=M) _ (2 * M + 5) 0 true ltac:(lia)
      (ltac:(replace (2 * M + 5 - 1) with (2 * M + 4) by ring; exact Hn)) ltac:(lia)) as [[_ Hz]|Hz]; lia.
Qed.

Lemma BitLen_bounds n : 1 <= n -> n < 2 ^ BitLen n /\ 1 <= BitLen n <= n.
Proof.
  intros Hn. unfold BitLen. pose proof (Z.log2_spec n ltac:(lia)) as H. unfold Z.succ in H.
  split; [lia|]. pose proof (Z.log2_nonneg n).
  assert (Z.log2 n < n) by (apply Z.log2_lt_lin; lia). lia.
Qed.

(** A sum of up to three wires holding a choice. *)
Lemma sum_select c : fsub (fadd (emb (sv x)) (emb (sv y))) (emb (if c : bool then sv x else sv y))
  = emb (if c then sv y else sv x).
Proof. femb. f_equal. destruct c; ring. Qed.

Lemma sv_wire z : emb (if zs z then - zm z else zm z) = emb (sv z).
Proof. reflexivity. Qed.

Lemma IsEq_bool s t : IsEq (emb (Z.b2z s)) (emb (Z.b2z t)) = emb (Z.b2z (Bool.eqb s t)).
Proof.
  pose proof (hp (b:=b) (K:=4*M+44)). rewrite IsEq_emb by (destruct s, t; cbn [Z.b2z]; lia).
  destruct s, t; reflexivity.
Qed.

Lemma add_keep : IsEq (emb (sv x)) (emb (sv y)) = emb (Z.b2z (sv x =? sv y)).
Proof.
  params. destruct (fmt_M (E:=E) (M:=M)) as [HM [HM1 HM2]].
  destruct (sv_range x Hx) as (Sx1 & Sx2 & Sx3).
  destruct (sv_range y Hy) as (Sy1 & Sy2 & Sy3).
  destruct (small_pow (E:=E) (M:=M) (b:=b)) as (Hs1 & _).
  apply IsEq_emb. lia.
Qed.

Lemma b2z_not c : emb (1 - Z.b2z c) = emb (Z.b2z (negb c)).
Proof. destruct c; reflexivity. Qed.

Lemma exec_Add :
  exec b (Add E M (embF x) (embF y))
  = Some (embF (zadd E M x y (0 <=? add_s M x y) (add_shift M x y)
                 (honest_pos E M (add_zr M x y (add_shift M x y)) (add_e x y (add_shift M x y))))).
Proof.
  params. exps E M. destruct (fmt_M (E:=E) (M:=M)) as [HM [HM1 HM2]].
  destruct add_pows as (P3 & P23 & P24 & P25 & P25' & P24').
  destruct add_bounds as (B1 & B2 & B3 & B4).
  assert (Hshift : 0 <= add_shift M x y <= M + 4).
  { destruct (Z.eq_dec (add_s M x y) 0) as [H0|H0]; [|apply add_norm, H0].
    unfold add_shift. rewrite H0. simpl. lia. }
  assert (Hn : 0 <= Z.abs (add_s M x y) * 2 ^ add_shift M x y < 2 ^ (2 * M + 5)).
  { destruct (Z.eq_dec (add_s M x y) 0) as [H0|H0].
    - rewrite H0. cbn [Z.abs]. rewrite Z.mul_0_l. lia.
    - pose proof (add_norm H0). lia. }
  destruct (add_zr_range (add_shift M x y) (or_intror eq_refl)) as [Hzr _].
  assert (Hmod : 2 ^ (4 * M + 44 - b) <= modulus) by (apply (room (b:=b) (K:=4*M+44)); lia).
  assert (Hk : 2 ^ (2 * M + 5) <= 2 ^ (4 * M + 44 - b)) by (apply pow2_mono; lia).
  assert (Hk2 : 2 ^ (2 * M + 5) < 2 ^ (4 * M + 44 - 2)) by (apply Z.pow_lt_mono_r; lia).
  unfold Add, embF. cbn [Sign Exponent Mantissa IsAbnormal]. rewrite fsub_emb.
  xs (exec_GAbs (b:=b) (K:=4*M+44) (ze y - ze x) (E + 1) ltac:(lia) ltac:(lia) ltac:(lia)).
  xstep. rewrite fsub_emb.
  xs (exec_GMax (b:=b) (K:=4*M+44) (M + 3 - Z.abs (ze y - ze x)) 0 E ltac:(lia) ltac:(lia) ltac:(lia)).
  fold (add_D M x y).
  xs (exec_QueryPow2 (E:=E) (M:=M) (b:=b) (add_D M x y) ltac:(lia)).
  rewrite !fneg_emb. do 2 xstep. rewrite (sv_wire x), (sv_wire y). xstep.
  replace (0 <=? ze y - ze x) with (ze x <=? ze y) by Lia.lia.
  cbv zeta. rewrite sum_select. fold (add_lo x y). fold (add_hi x y).
  rewrite !fmul_emb, fadd_emb. fold (add_s M x y).
  replace (M + 3 + (M + 1) + 1) with (2 * M + 5) by ring.
  rewrite (AbsHint_emb (b:=b) (K:=4*M+44)) by lia. cbn [fst snd].
  repeat xstep.
  assert (Hnorm : NormalizeHint (emb (Z.abs (add_s M x y))) (2 * M + 5) = Some (add_shift M x y)).
  { unfold NormalizeHint, add_shift. rewrite emb_small by lia.
    destruct (Z.eqb_spec (add_s M x y) 0) as [H0|H0]; [rewrite H0; reflexivity|].
    destruct (Z.eqb_spec (Z.abs (add_s M x y)) 0); [lia|].
    rewrite leading_zeros_log2 by (rewrite Z2Nat.id by lia; lia).
    rewrite Z2Nat.id by lia. f_equal. lia. }
  rewrite Hnorm. xstep.
  destruct (BitLen_bounds (2 * M + 5) ltac:(lia)) as [Hbl1 Hbl2].
  rewrite exec_bind_eq with (a := tt) by (apply (exec_abl (K:=4*M+44)); lia).
  xs (exec_QueryPow2 (E:=E) (M:=M) (b:=b) (add_shift M x y) ltac:(lia)).
  rewrite fneg_emb. xstep.
  replace (if 0 <=? add_s M x y then add_s M x y else - add_s M x y) with (Z.abs (add_s M x y))
    by (clear; destruct (Z.leb_spec 0 (add_s M x y)); Lia.lia).
  rewrite !fmul_emb. rewrite isZero_emb by lia.
  assert (Hz : (Z.abs (add_s M x y) * 2 ^ add_shift M x y =? 0) = (add_s M x y =? 0)).
  { pose proof (pow_pos (add_shift M x y) ltac:(lia)) as Hp. clear - Hp.
    destruct (Z.eqb_spec (add_s M x y) 0) as [->|Hne]; [reflexivity|]. apply Z.eqb_neq. nia. }
  rewrite Hz. femb. rewrite !b2z_not.
  replace (2 * M + 5 - 1) with (2 * M + 4) by ring.
  rewrite exec_bind_eq with (a := tt).
  2:{ apply (exec_abl (K:=4*M+44)); [lia|lia|].
      destruct (Z.eqb_spec (add_s M x y) 0) as [H0|H0]; cbn [negb Z.b2z].
      - rewrite H0. cbn [Z.abs]. lia.
      - destruct (add_norm H0). lia. }
  rewrite IsEq_bool.
  replace (if ze x <=? ze y then ze y else ze x) with (Z.max (ze x) (ze y))
    by (clear; destruct (Z.leb_spec (ze x) (ze y)); Lia.lia).
  femb. fold (add_e x y (add_shift M x y)).
  xstep. change (emb 1) with (emb (Z.b2z true)).
  xs (exec_zround (E:=E) (M:=M) (b:=b) _ _ _ _ true (add_round_pre _ Hn)).
  fold (add_zr M x y (add_shift M x y)).
  xstep. unfold zadd, honest_pos.
  rewrite exec_bind, exec_fixOverflow;
    [|lia|unfold add_e; destruct Hx as [Hx1 _], Hy as [Hy1 _]; lia].
  destruct (zfix _ _ _ _ _) as [[m' e'] ab].
  rewrite add_keep.
  repeat xstep. rewrite exec_ret. unfold embF. cbn [zs ze zm za].
  do 3 f_equal. destruct (Bool.eqb (zs x) (zs y)); reflexivity.
Qed.

Lemma sv_lo_hi c : (0 < ze y - ze x -> c = true) -> (ze y - ze x < 0 -> c = false) ->
  (if c : bool then sv x else sv y) * 2 ^ add_D M x y + (if c then sv y else sv x) * 2 ^ (M + 3)
  = add_s M x y /\ (if c then ze y else ze x) = Z.max (ze x) (ze y).
Proof.
  params. intros H1 H2. unfold add_s, add_lo, add_hi.
  destruct (Z.leb_spec (ze x) (ze y)) as [Hl|Hl].
  - destruct (Z.eq_dec (ze x) (ze y)) as [He|He].
    + replace (add_D M x y) with (M + 3) by (unfold add_D; lia).
      split; destruct c; try lia; ring.
    + rewrite H1 by lia. split; [reflexivity|lia].
  - rewrite H2 by lia. split; [reflexivity|lia].
Qed.

Lemma add_wide shift : 0 <= shift <= M + E ->
  Z.abs (add_s M x y) * 2 ^ shift <= 2 ^ (4 * M + 5).
Proof.
  intros Hs. params. destruct add_bounds as (B1 & _).
  replace (2 ^ (4 * M + 5)) with (2 ^ (2 * M + 5) * 2 ^ (2 * M)) by (rewrite <- Z.pow_add_r by lia; f_equal; ring).
  assert (2 ^ shift <= 2 ^ (2 * M)) by (apply pow2_mono; lia).
  pose proof (pow_pos shift ltac:(lia)).
  apply Z.mul_le_mono_nonneg; lia.
Qed.

(** The check on the normalised sum pins its sign and the shift down. *)
Lemma add_pinned c2 shift : 0 <= shift <= M + E ->
  let n := (if c2 : bool then add_s M x y else - add_s M x y) * 2 ^ shift in
  0 <= n - Z.b2z (negb (add_s M x y =? 0)) * 2 ^ (2 * M + 4) < 2 ^ (2 * M + 4) <->
  (add_s M x y <> 0 -> c2 = (0 <? add_s M x y) /\ shift = add_shift M x y).
Proof.
  intros Hsh n. params. destruct add_pows as (_ & _ & _ & _ & P25' & P24').
  destruct (Z.eqb_spec (add_s M x y) 0) as [H0|H0]; cbn [negb Z.b2z].
  - unfold n. rewrite H0. destruct c2; cbn [Z.opp]; rewrite Z.mul_0_l; lia.
  - pose proof (pow_pos shift ltac:(lia)) as Hp. destruct (add_norm H0) as [N1 N2].
    split.
    + intros Hn _.
      assert (Hc : c2 = (0 <? add_s M x y)).
      { clear - Hn Hp H0 P24'. unfold n in Hn.
        destruct c2; symmetry; [apply Z.ltb_lt|apply Z.ltb_ge]; nia. }
      split; [exact Hc|].
      assert (Hn' : 2 ^ (2 * M + 4) <= Z.abs (add_s M x y) * 2 ^ shift < 2 ^ (2 * M + 5)).
      { replace (Z.abs (add_s M x y)) with (if c2 then add_s M x y else - add_s M x y); [fold n; lia|].
        rewrite Hc. clear - H0. destruct (Z.ltb_spec 0 (add_s M x y)); lia. }
      pose proof (pow_pos (add_shift M x y) ltac:(lia)).
      destruct (Z.lt_trichotomy shift (add_shift M x y)) as [Hlt|[Heq|Hgt]]; [exfalso|exact Heq|exfalso].
      * assert (2 * 2 ^ shift <= 2 ^ add_shift M x y).
        { rewrite <- Z.pow_succ_r by lia. apply pow2_mono; lia. }
        clear - H1 N1 Hn' P25' P24' H0 Hp. nia.
      * assert (2 * 2 ^ add_shift M x y <= 2 ^ shift).
        { rewrite <- Z.pow_succ_r by lia. apply pow2_mono; lia. }
        clear - H1 N1 Hn' P25' P24' H0 Hp. nia.
    + intros H. destruct (H H0) as [Hc Hs]. subst shift.
      replace n with (Z.abs (add_s M x y) * 2 ^ add_shift M x y); [lia|].
      unfold n. f_equal. rewrite Hc. clear - H0. destruct (Z.ltb_spec 0 (add_s M x y)); lia.
Qed.

Lemma add_nz c2 shift : 0 <= shift <= M + E ->
  isZero (emb ((if c2 : bool then add_s M x y else - add_s M x y) * 2 ^ shift))
  = emb (Z.b2z (add_s M x y =? 0)).
Proof.
  intros Hsh. params. pose proof (add_wide shift Hsh) as Hw.
  assert (Hmod : 2 ^ (4 * M + 44 - b) <= modulus) by (apply (room (b:=b) (K:=4*M+44)); lia).
  assert (Hk : 2 ^ (4 * M + 5) < 2 ^ (4 * M + 44 - b)) by (apply Z.pow_lt_mono_r; lia).
  pose proof (pow_pos shift ltac:(lia)) as Hp.
  rewrite isZero_emb.
  - do 2 f_equal. clear - Hp. destruct (Z.eqb_spec (add_s M x y) 0) as [->|Hne].
    + destruct c2; reflexivity.
    + apply Z.eqb_neq. destruct c2; nia.
  - clear - Hw Hk Hmod Hp. destruct c2; nia.
Qed.

Lemma add_abs_n c2 shift :
  (add_s M x y <> 0 -> c2 = (0 <? add_s M x y) /\ shift = add_shift M x y) ->
  (if c2 : bool then add_s M x y else - add_s M x y) * 2 ^ shift
  = Z.abs (add_s M x y) * 2 ^ shift.
Proof.
  intros H. f_equal. destruct (Z.eq_dec (add_s M x y) 0) as [H0|H0].
  - rewrite H0. destruct c2; reflexivity.
  - destruct (H H0) as [-> _]. clear - H0. destruct (Z.ltb_spec 0 (add_s M x y)); lia.
Qed.

Lemma sat_Add r : pow2_size E M mod b = 0 ->
  sat b (Add E M (embF x) (embF y)) r ->
  exists c2 shift pos, add_choice E M x y c2 shift pos /\ r = embF (zadd E M x y c2 shift pos).
Proof.
  intros Hdv H. params. exps E M. destruct (fmt_M (E:=E) (M:=M)) as [HM [HM1 HM2]].
  destruct add_pows as (P3 & P23 & P24 & P25 & P25' & P24').
  destruct add_bounds as (B1 & B2 & B3 & B4).
  assert (Hmod : 2 ^ (4 * M + 44 - b) <= modulus) by (apply (room (b:=b) (K:=4*M+44)); lia).
  assert (Hw1 : 2 ^ (E + 1) <= 2 ^ (4 * M + 44 - 1)) by (apply pow2_mono; lia).
  assert (Hw2 : M + 3 <= 2 ^ (2 * M + 30)).
  { pose proof (Z.pow_gt_lin_r 2 (2 * M + 30) ltac:(lia) ltac:(lia)). lia. }
  unfold Add, embF in H. cbn [Sign Exponent Mantissa IsAbnormal] in H. rewrite fsub_emb in H.
  apply sat_bind in H. destruct H as [dl [Hd H]].
  apply (sat_GAbs (b:=b) (K:=4*M+44)) in Hd; [|lia|lia|lia].
  destruct Hd as [c [-> [Hc1 [Hc2 _]]]].
  sstep H. cbv zeta in H. rewrite fsub_emb in H.
  apply sat_bind in H. destruct H as [D [HD H]].
  apply (sat_GMax (b:=b) (K:=4*M+44)) in HD; [|lia|lia|lia].
  destruct HD as [-> _]. fold (add_D M x y) in H.
  apply sat_bind in H. destruct H as [t [Ht H]].
  apply (sat_QueryPow2 (E:=E) (M:=M) (b:=b)) in Ht; [|exact Hdv|lia]. destruct Ht as [_ ->].
  rewrite !fneg_emb in H. do 2 sstep H. rewrite (sv_wire x), (sv_wire y) in H. sstep H.
  cbv zeta in H. rewrite sum_select in H. rewrite !fmul_emb, fadd_emb in H.
  destruct (sv_lo_hi c Hc1 Hc2) as [Hs1 Hs2]. rewrite Hs1, Hs2 in H.
  replace (M + 3 + (M + 1) + 1) with (2 * M + 5) in H by ring.
  apply sat_bind in H. destruct H as [wg [Hg H]].
  shint H w1 Hw1'. 
  apply sat_bind in H. destruct H as [[] [Hb H]]. apply sat_assert_bool in Hb. destruct Hb as [c2 ->].
  clear Hg. shint H sh Hsh. scheck H Hck1.
  destruct (BitLen_bounds (2 * M + 5) ltac:(lia)) as [Hbl1 Hbl2].
  apply (check_loose_any (K:=4*M+44)) in Hck1; [|lia|lia|exact Hsh].
  assert (Hsh2 : sh <= 2 ^ (2 * M + 30)).
  { pose proof (capacity_bounds b (BitLen (2 * M + 5)) ltac:(lia) ltac:(lia)) as [_ [Hcb _]].
    assert (2 ^ capacity b (BitLen (2 * M + 5)) <= 2 ^ (2 * M + 30)) by (apply pow2_mono; lia). lia. }
  rewrite <- (emb_small sh Hsh) in H.
  apply sat_bind in H. destruct H as [ts [Hts H]].
  apply (sat_QueryPow2 (E:=E) (M:=M) (b:=b)) in Hts; [|exact Hdv|lia]. destruct Hts as [Hsr ->].
  rewrite fneg_emb in H. sstep H. rewrite !fmul_emb in H. rewrite (add_nz c2 sh Hsr) in H.
  scheck H Hck2. femb_in Hck2. femb_in H. rewrite !b2z_not in H.
  replace (1 - Z.b2z (add_s M x y =? 0)) with (Z.b2z (negb (add_s M x y =? 0))) in Hck2
    by (destruct (add_s M x y =? 0); reflexivity).
  replace (2 * M + 5 - 1) with (2 * M + 4) in Hck2 by ring.
  pose proof (add_wide sh Hsr) as Hwd.
  assert (Hk : 2 ^ (4 * M + 5) * 2 <= 2 ^ (4 * M + 44 - b)).
  { rewrite Z.mul_comm, <- Z.pow_succ_r by lia. apply pow2_mono; lia. }
  assert (Hk' : 2 ^ (2 * M + 4) <= 2 ^ (4 * M + 5)) by (apply pow2_mono; lia).
  pose proof (pow_pos sh ltac:(lia)) as Hpsh.
  apply (check_small (K:=4*M+44)) in Hck2; [|lia|lia|].
  2:{ clear - Hwd Hk Hk' Hpsh P24'. destruct (add_s M x y =? 0), c2; cbn [negb Z.b2z]; nia. }
  pose proof (proj1 (add_pinned c2 sh Hsr) Hck2) as Hpin. clear Hck2. rename Hpin into Hck2.
  rewrite (add_abs_n c2 sh Hck2) in H.
  assert (Hn : 0 <= Z.abs (add_s M x y) * 2 ^ sh < 2 ^ (2 * M + 5)).
  { destruct (Z.eq_dec (add_s M x y) 0) as [H0|H0].
    - rewrite H0. cbn [Z.abs]. rewrite Z.mul_0_l. lia.
    - destruct (Hck2 H0) as [_ ->]. destruct (add_norm H0). lia. }
  destruct (add_zr_range sh) as [Hzr _].
  { destruct (Z.eq_dec (add_s M x y) 0) as [H0|H0]; [left; exact H0|right; apply Hck2, H0]. }
  rewrite IsEq_bool in H. sstep H.
  apply sat_bind in H. destruct H as [zr [Hz H]].
  change (emb 1) with (emb (Z.b2z true)) in Hz.
  apply sat_zround in Hz; [|exact Hdv|apply add_round_pre, Hn].
  subst zr. fold (add_zr M x y sh) in H.
  sstep H. fold (add_e x y sh) in H.
  apply sat_bind in H. destruct H as [tf [Htf H]].
  apply sat_fixOverflow in Htf; [|lia|unfold add_e; destruct Hx as [Hx1 _], Hy as [Hy1 _]; lia].
  destruct Htf as [pos [Hpos ->]].
  exists c2, sh, pos. split; [split; [exact Hck2|split; [exact Hsr|exact Hpos]]|].
  unfold zadd. destruct (zfix _ _ _ _ _) as [[m' e'] ab].
  rewrite add_keep in H. repeat sstep H.
  apply sat_ret_inv in H. rewrite <- H. unfold embF. cbn [zs ze zm za].
  f_equal. destruct (Bool.eqb (zs x) (zs y)); reflexivity.
Qed.

End Ops.
End Add.
