(** scaleR: the resolution wire has four bits, the multiplier is the IEEE
    product of the selected powers. *)
From Coq Require Import ZArith Reals Lra Lia Bool List.
From Flocq Require Import Core BinarySingleNaN.
From Verif Require Import Field FieldFacts Circuit CircuitFacts RangeCheck RangeFacts Gadget
  GadgetFacts Util FloatModel Tactics RoundFacts Spec RoundCore RepFacts MulFacts
  AddFacts AddSpec Forge CompFacts NewFacts CmpFacts EqFacts Outcomes CircuitSpec Expr ExprFacts
  ValueFacts Math MathFacts SinFacts Witness Loc2Index.
Import ListNotations.
Local Open Scope Z_scope.

(** ** Binary decomposition *)

Section Binary.
Context {MOD : Modulus} {HB : BigMod}.
Let Hp : 2 < modulus := HB.
Variable b : Z.

Definition bits_from (a i : Z) (n : nat) : list bool :=
  map (fun k => Z.testbit a (i + Z.of_nat k)) (seq 0 n).

Lemma bits_from_S a i n : bits_from a i (S n) = Z.testbit a i :: bits_from a (i + 1) n.
Proof.
  unfold bits_from. cbn [seq map]. rewrite Z.add_0_r. f_equal.
  rewrite <- seq_shift, map_map. apply map_ext. intros k. f_equal. lia.
Qed.

Definition bit_wires (l : list bool) : list Z := map (fun c => emb (Z.b2z c)) l.

Lemma bit_hints_S a i n : bit_hints a i (S n) =
  (w <- hint1 (Some (if Z.testbit a i then 1 else 0)) ;;
   assert_bool w ;;;
   ws <- bit_hints a (i + 1) n ;;
   Ret (w :: ws)).
Proof. reflexivity. Qed.

Lemma sat_bit_hints a i n ws : sat b (bit_hints a i n) ws <->
  exists l, length l = n /\ ws = bit_wires l.
Proof.
  revert a i ws. induction n as [|n IH]; intros a i ws.
  - change (bit_hints a i 0) with (@Ret (list Z) []). rewrite sat_ret. split.
    + intros <-. exists []. auto.
    + intros [[|] [Hl ->]]; [reflexivity|discriminate].
  - rewrite bit_hints_S. split.
    + intros H. apply sat_bind in H as [w [_ H]]. apply sat_bind in H as [[] [Hw H]].
      apply sat_assert_bool in Hw as [c ->]. apply sat_bind in H as [t [Ht H]].
      apply IH in Ht as [l [<- ->]]. apply sat_ret_inv in H. subst ws. exists (c :: l). auto.
    + intros [[|c l] [Hl ->]]; [discriminate|]. injection Hl as Hl.
      apply sat_bind. exists (emb (Z.b2z c)). split; [apply sat_hint1, emb_range|].
      apply sat_bind. exists tt. split; [apply sat_assert_bool; eauto|].
      apply sat_bind. exists (bit_wires l). split; [apply IH; eauto|]. apply sat_ret. reflexivity.
Qed.

Lemma bit_wires_range l : Forall (fun w => 0 <= w < modulus) (bit_wires l).
Proof. induction l; constructor; [apply emb_range|assumption]. Qed.

Lemma bit_wires_bits l : Forall (fun w => 0 <= w < 2 ^ 1) (bit_wires l).
Proof.
  induction l as [|c l IH]; constructor; [|assumption]. rewrite emb_b2z. destruct c; simpl; lia.
Qed.

Lemma zc_bits l i : 0 <= i -> zc 1 (bit_wires l) < 2 ^ Z.of_nat (length l) ->
  forall a, a / 2 ^ i = zc 1 (bit_wires l) -> l = bits_from a i (length l).
Proof.
  revert i. induction l as [|c l IH]; intros i Hi Hz a Ha; [reflexivity|].
  cbn [length] in *. rewrite bits_from_S.
  change (zc 1 (bit_wires (c :: l))) with (emb (Z.b2z c) + 2 ^ 1 * zc 1 (bit_wires l)) in *.
  rewrite emb_b2z in *. change (2 ^ 1) with 2 in *.
  assert (Hc : Z.testbit a i = c).
  { rewrite <- (Z.add_0_l i), <- Z.div_pow2_bits, Ha by lia.
    rewrite Z.bit0_odd, Z.odd_add, Z.odd_mul. destruct c; reflexivity. }
  f_equal; [symmetry; exact Hc|]. apply IH.
  - lia.
  - rewrite Nat2Z.inj_succ, Z.pow_succ_r in Hz by lia. destruct c; cbn [Z.b2z] in Hz; lia.
  - rewrite Z.pow_add_r, <- Z.div_div, Ha by (try (apply Z.pow_nonzero); lia). change (2 ^ 1) with 2.
    rewrite Z.mul_comm, Z.div_add by lia. destruct c; reflexivity.
Qed.

Lemma bits_zc a n : 0 <= a < 2 ^ Z.of_nat n -> zc 1 (bit_wires (bits_from a 0 n)) = a.
Proof.
  assert (G : forall i, 0 <= i -> 0 <= a ->
    zc 1 (bit_wires (bits_from a i n)) = (a / 2 ^ i) mod 2 ^ Z.of_nat n).
  { induction n as [|n IH]; intros i Hi Ha.
    - change (2 ^ Z.of_nat 0) with 1. rewrite Z.mod_1_r. reflexivity.
    - rewrite bits_from_S.
      change (bit_wires (?c :: ?l)) with (emb (Z.b2z c) :: bit_wires l).
      cbn [bit_wires map zc]. fold (bit_wires (bits_from a (i + 1) n)). rewrite IH by lia. rewrite emb_b2z. change (2 ^ 1) with 2.
      rewrite Nat2Z.inj_succ, Z.pow_succ_r by lia.
      rewrite Z.rem_mul_r by (apply Z.pow_pos_nonneg || idtac; try lia; apply Z.pow_nonzero; lia).
      rewrite Z.pow_add_r, <- Z.div_div by (try (apply Z.pow_nonzero); lia).
      change (2 ^ 1) with 2. f_equal.
      rewrite <- Z.bit0_mod, Z.div_pow2_bits by lia. f_equal. }
  intros H. rewrite (G 0) by lia. change (2 ^ 0) with 1. rewrite Z.div_1_r. apply Z.mod_small. exact H.
Qed.

(** [ToBinary] accepts exactly the values of that many bits, with one choice of
    bits. *)
Lemma sat_to_binary a n ws : 0 <= a < modulus -> 2 ^ Z.of_nat n <= modulus ->
  (sat b (to_binary a n) ws <-> a < 2 ^ Z.of_nat n /\ ws = bit_wires (bits_from a 0 n)).
Proof.
  intros Ha Hn. unfold to_binary. split.
  - intros H. apply sat_bind in H as [t [Ht H]]. apply sat_bit_hints in Ht as [l [<- ->]].
    apply sat_bind in H as [[] [He H]]. apply sat_assert_eq in He. apply sat_ret_inv in H. subst ws.
    rewrite recompose_zc in He by (try lia; apply bit_wires_range).
    rewrite Z.mul_0_r, Z.mul_1_l in He.
    pose proof (zc_range 1 (bit_wires l) ltac:(lia) (bit_wires_bits l)) as Hz.
    replace (length (bit_wires l)) with (length l) in Hz by (symmetry; apply map_length).
    rewrite Z.mul_1_l in Hz. rewrite emb_small in He by lia. split; [lia|].
    rewrite <- (zc_bits l 0); [reflexivity|lia|lia|]. change (2 ^ 0) with 1. rewrite Z.div_1_r. auto.
  - intros [Hl ->]. apply sat_bind. exists (bit_wires (bits_from a 0 n)).
    split; [apply sat_bit_hints; exists (bits_from a 0 n); unfold bits_from;
      rewrite map_length, seq_length; auto|].
    apply sat_bind. exists tt. split; [|apply sat_ret; reflexivity]. apply sat_assert_eq.
    rewrite recompose_zc by (try lia; apply bit_wires_range).
    rewrite Z.mul_0_r, Z.mul_1_l, bits_zc by lia. apply emb_small. lia.
Qed.

Lemma exec_bit_hints a i n : exec b (bit_hints a i n) = Some (bit_wires (bits_from a i n)).
Proof.
  revert i. induction n as [|n IH]; intros i; [reflexivity|]. rewrite bit_hints_S, bits_from_S.
  assert (Hb : emb (if Z.testbit a i then 1 else 0) = emb (Z.b2z (Z.testbit a i)))
    by (destruct (Z.testbit a i); reflexivity).
  rewrite (exec_bind_eq _ _ _ _ (exec_hint1 _ _)), Hb.
  rewrite (exec_bind_eq _ _ _ _ (exec_assert_bool _ _)).
  rewrite (exec_bind_eq _ _ _ _ (IH _)). reflexivity.
Qed.

Lemma exec_to_binary a n : 0 <= a < 2 ^ Z.of_nat n -> 2 ^ Z.of_nat n <= modulus ->
  exec b (to_binary a n) = Some (bit_wires (bits_from a 0 n)).
Proof.
  intros Ha Hn. unfold to_binary. rewrite (exec_bind_eq _ _ _ _ (exec_bit_hints _ _ _)).
  rewrite recompose_zc by (try lia; apply bit_wires_range).
  rewrite Z.mul_0_r, Z.mul_1_l, bits_zc, emb_small by lia.
  rewrite (exec_bind_eq _ _ _ _ (exec_assert_eq _ _)). reflexivity.
Qed.

End Binary.

(** ** Square and multiply *)

(** The IEEE product of the selected factors, from the left. *)
Fixpoint ieee_select_product {E M : Z} {HF : Format E M} (bits : list bool) (fs : list (fmt E M))
    (acc : fmt E M) : fmt E M :=
  match bits, fs with
  | c :: bits, f :: fs =>
      ieee_select_product bits fs (if c then ieee_mul E M acc f else acc)
  | _, _ => acc
  end.

(** The factor of a resolution: bit [i] selects the [i]-th power. *)
Definition ieee_scale {E M : Z} {HF : Format E M} (fs : list (fmt E M)) (resolution : Z) : fmt E M :=
  ieee_select_product (map (fun i => Z.testbit resolution (Z.of_nat i)) (seq 0 4)) fs
    (of_bits E M (int_bits E M 1)).

(** Every product met on the way is finite. *)
Fixpoint products_finite {E M : Z} {HF : Format E M} (bits : list bool) (fs : list (fmt E M))
    (acc : fmt E M) : bool :=
  match bits, fs with
  | c :: bits, f :: fs =>
      is_finite (ieee_mul E M acc f) &&
      products_finite bits fs (if c then ieee_mul E M acc f else acc)
  | _, _ => true
  end.

Section Scale.
Context {MOD : Modulus} {E M b : Z} {HP : Params E M b} {HF : Format E M}.
#[local] Instance Wn : Width b (4 * M + 44) := params_width E M b HP.
#[local] Instance Bn : BigMod := width_big b _ _.
Notation fmt := (Spec.fmt E M).
Notation const v := (NewConstant E M v).

Lemma represents_unique x (f : fmt) : represents x f -> is_nan f = false -> x = wires f.
Proof.
  intros [z [-> Hz]] Hn. unfold wires. f_equal. pose proof (comps_zrep f) as Hc.
  destruct f; try discriminate; cbn [zrep] in *; congruence.
Qed.

Lemma mul_positive (f g : fmt) : is_finite f = true -> is_finite g = true ->
  Bsign f = false -> Bsign g = false -> is_nan (ieee_mul E M f g) = false -> 
  Bsign (ieee_mul E M f g) = false.
Proof.
  intros Ff Fg Sf Sg Hn. pose proof (Bmult_correct _ _ _ _ mode_NE f g) as C.
  destruct (Rlt_bool _ _).
  - destruct C as (_ & _ & C). unfold ieee_mul. rewrite C by exact Hn. rewrite Sf, Sg. reflexivity.
  - unfold ieee_mul in *. rewrite Sf, Sg in C. 
    assert (H : forall h : fmt, B2SF h = binary_overflow (prec M) (emax E) mode_NE false -> Bsign h = false).
    { intros h. unfold binary_overflow. cbn. destruct h; cbn; congruence. }
    apply H, C.
Qed.

Lemma abs_positive (f : fmt) : Bsign f = false -> is_nan f = false -> ieee_abs E M f = f.
Proof. destruct f; cbn; intros H1 H2; try discriminate; rewrite H1 || idtac; try reflexivity; subst; reflexivity. Qed.

Lemma finite_not_nan (f : fmt) : is_finite f = true -> is_nan f = false.
Proof. destruct f; cbn; congruence. Qed.

Definition positive (f : fmt) : Prop := is_finite f = true /\ Bsign f = false.

Lemma scale_step acc (facc f : fmt) power (c : bool) t : represents acc facc -> positive facc ->
  0 <= power < 2 ^ (E + M + 1) -> f = of_bits E M power -> positive f ->
  is_finite (ieee_mul E M facc f) = true ->
  represents t (ieee_mul E M facc f) ->
  let facc' := if c then ieee_mul E M facc f else facc in
  positive facc' /\
  represents (mkF (emb 0) (if c then Exponent t else Exponent acc)
    (if c then Mantissa t else Mantissa acc) (emb 0)) facc'.
Proof.
  intros Ha [Fa Sa] Hp -> [Ff Sf] Fm Ht facc'.
  assert (P : positive facc').
  { unfold facc'. destruct c; [|split; assumption]. split; [exact Fm|].
    apply mul_positive; auto. apply finite_not_nan, Fm. }
  split; [exact P|].
  rewrite <- (abs_positive facc') by (try apply finite_not_nan; apply P).
  apply select_abs; assumption.
Qed.

Lemma sat_scale_loop : pow2_size E M mod b = 0 -> forall powers bits acc facc r,
  length bits = length powers ->
  represents acc facc -> positive facc ->
  Forall (fun p => 0 <= p < 2 ^ (E + M + 1) /\ positive (of_bits E M p)) powers ->
  products_finite bits (map (of_bits E M) powers) facc = true ->
  sat b (scale_loop E M (bit_wires bits) powers acc) r ->
  let f := ieee_select_product bits (map (of_bits E M) powers) facc in
  represents r f /\ positive f.
Proof.
  intros Hd. induction powers as [|p powers IH]; intros [|c bits] acc facc r Hl Ha Pa HF1 Hfin H;
    try discriminate.
  - change (sat b (Ret acc) r) in H. apply sat_ret_inv in H. subst r. split; assumption.
  - cbn [length] in Hl. injection Hl as Hl. inversion HF1 as [|? ? [Hp Pp] HF2]; subst.
    cbn [map products_finite] in Hfin. apply andb_prop in Hfin as [Fm Hfin].
    cbn [bit_wires map scale_loop] in H. fold (bit_wires bits) in H.
    apply sat_bind in H as [t [Ht H]].
    apply mul_safe with (fx := facc) (fy := of_bits E M p) in Ht;
      [|exact Hd|exact Ha|exact (newconst_spec p Hp)|auto].
    apply sat_bind in H as [e [He H]]. apply sat_select_known in He. subst e.
    apply sat_bind in H as [m [Hm H]]. apply sat_select_known in Hm. subst m.
    destruct (scale_step acc facc _ p c t Ha Pa Hp eq_refl Pp Fm Ht) as [Pa' Ha'].
    cbn [map ieee_select_product].
    exact (IH bits _ _ r Hl Ha' Pa' HF2 Hfin H).
Qed.

Lemma exec_scale_loop : forall powers bits acc facc,
  length bits = length powers ->
  represents acc facc -> positive facc ->
  Forall (fun p => 0 <= p < 2 ^ (E + M + 1) /\ positive (of_bits E M p)) powers ->
  products_finite bits (map (of_bits E M) powers) facc = true ->
  exists r, exec b (scale_loop E M (bit_wires bits) powers acc) = Some r /\
    represents r (ieee_select_product bits (map (of_bits E M) powers) facc).
Proof.
  induction powers as [|p powers IH]; intros [|c bits] acc facc Hl Ha Pa HF1 Hfin; try discriminate.
  - exists acc. auto.
  - cbn [length] in Hl. injection Hl as Hl. inversion HF1 as [|? ? [Hp Pp] HF2]; subst.
    cbn [map products_finite] in Hfin. apply andb_prop in Hfin as [Fm Hfin].
    cbn [bit_wires map scale_loop]. fold (bit_wires bits).
    destruct (mul_complete acc (const p) facc (of_bits E M p) Ha (newconst_spec p Hp)) as (t & Ht & Rt).
    rewrite (exec_bind_eq _ _ _ _ Ht).
    rewrite (exec_bind_eq _ _ _ _ (exec_select _ _ _ _)).
    rewrite (exec_bind_eq _ _ _ _ (exec_select _ _ _ _)).
    destruct (scale_step acc facc _ p c t Ha Pa Hp eq_refl Pp Fm Rt) as [Pa' Ha'].
    exact (IH bits _ _ Hl Ha' Pa' HF2 Hfin).
Qed.

(** The conditions on the constants that matter. *)
Definition good_powers (powers : list Z) : Prop :=
  length powers = 4%nat /\
  Forall (fun p => 0 <= p < 2 ^ (E + M + 1) /\ positive (of_bits E M p)) powers /\
  forall res, 0 <= res < 16 -> products_finite (map (fun i => Z.testbit res (Z.of_nat i)) (seq 0 4))
    (map (of_bits E M) powers) (of_bits E M (int_bits E M 1)) = true.

Lemma one_const : 0 <= int_bits E M 1 < 2 ^ (E + M + 1) /\
  represents (const (int_bits E M 1)) (of_bits E M (int_bits E M 1)) /\
  positive (of_bits E M (int_bits E M 1)) /\ B2R (of_bits E M (int_bits E M 1)) = 1%R.
Proof.
  destruct (fmt_M (E:=E) (M:=M)) as [HM [HM1 HM2]].
  assert (H1 : 0 < 1 < 2 ^ (M + 1)).
  { split; [lia|]. apply Z.lt_le_trans with (2 ^ 1); [reflexivity|]. apply Z.pow_le_mono_r; lia. }
  assert (HMe : M < 2 ^ (E - 1)) by (pose proof (f_2M (E:=E) (M:=M)); lia).
  destruct (int_bits_range 1 H1 HMe) as (Hr & Hs & _).
  destruct (int_bits_valued 1 H1 HMe) as (f & Rf & Ff & Vf).
  pose proof (newconst_spec _ Hr) as Hc. split; [exact Hr|]. split; [exact Hc|].
  rewrite (represents_inj _ _ _ Hc Rf). split; [|exact Vf]. split; [exact Ff|].
  destruct f as [t|t| |t m e Hb]; try discriminate Ff.
  - cbn in Vf. lra.
  - cbn [Bsign]. destruct t; [|reflexivity]. exfalso. cbn [B2R] in Vf.
    assert (F2R (beta:=radix2) (Float radix2 (cond_Zopp true (Z.pos m)) e) < 0)%R by (apply F2R_lt_0; reflexivity).
    lra.
Qed.

Lemma bits4 res : bits_from res 0 4 = map (fun i => Z.testbit res (Z.of_nat i)) (seq 0 4).
Proof. reflexivity. Qed.

Lemma sixteen : 2 ^ Z.of_nat 4 <= modulus.
Proof.
  pose proof (room (b:=b) (K:=4*M+44) 4). destruct (fmt_M (E:=E) (M:=M)) as [HM _].
  change (Z.of_nat 4) with 4. apply H. lia.
Qed.

Variable K : constants.
Hypothesis Hk : good_powers (k_powers K).
Notation factor res := (ieee_scale (map (of_bits E M) (k_powers K)) res).

Theorem scale_sat r res x : pow2_size E M mod b = 0 -> 0 <= res < modulus ->
  (sat b (scaleR E M K r res) x <-> res < 16 /\ sat b (Mul E M r (wires (factor res))) x).
Proof.
  intros Hd Hres. destruct Hk as (Hl & HF1 & Hfin). destruct one_const as (_ & H1 & P1 & _).
  unfold scaleR. split.
  - intros H. apply sat_bind in H as [ws [Hw H]].
    apply (sat_to_binary b res 4 ws Hres sixteen) in Hw as [Hlt ->].
    change (2 ^ Z.of_nat 4) with 16 in Hlt. split; [exact Hlt|].
    apply sat_bind in H as [m [Hm H]]. rewrite bits4 in Hm.
    apply (sat_scale_loop Hd) with (facc := of_bits E M (int_bits E M 1)) in Hm;
      [|cbn [length map seq]; congruence|exact H1|exact P1|exact HF1|apply Hfin; lia].
    destruct Hm as [Rm [Fm _]]. unfold ieee_scale. rewrite <- (represents_unique m _ Rm (finite_not_nan _ Fm)). exact H.
  - intros [Hlt H].
    destruct (exec_scale_loop (k_powers K) (bits_from res 0 4) (const (int_bits E M 1)) _
      ltac:(rewrite bits4; cbn [length map seq]; congruence) H1 P1 HF1 ltac:(rewrite bits4; apply Hfin; lia))
      as (m & Hm & Rm).
    apply sat_bind. exists (bit_wires (bits_from res 0 4)). split.
    { apply (sat_to_binary b res 4 _ Hres sixteen). split; [exact Hlt|reflexivity]. }
    apply sat_bind. exists m. split; [apply exec_sat, Hm|].
    assert (G : sat b (scale_loop E M (bit_wires (bits_from res 0 4)) (k_powers K) (const (int_bits E M 1))) m)
      by (apply exec_sat, Hm).
    apply (sat_scale_loop Hd) with (facc := of_bits E M (int_bits E M 1)) in G;
      [|rewrite bits4; cbn [length map seq]; congruence|exact H1|exact P1|exact HF1|rewrite bits4; apply Hfin; lia].
    destruct G as [_ [Fm _]]. rewrite (represents_unique m _ Rm (finite_not_nan _ Fm)). exact H.
Qed.

Theorem scale_exec r (fr : fmt) res : 0 <= res < 16 -> represents r fr ->
  exists x, exec b (scaleR E M K r res) = Some x /\ represents x (ieee_mul E M fr (factor res)).
Proof.
  intros Hres Hr. destruct Hk as (Hl & HF1 & Hfin). destruct one_const as (_ & H1 & P1 & _).
  unfold scaleR. rewrite (exec_bind_eq _ _ _ _ (exec_to_binary b res 4 Hres sixteen)).
  destruct (exec_scale_loop (k_powers K) (bits_from res 0 4) (const (int_bits E M 1)) _
    ltac:(rewrite bits4; cbn [length map seq]; congruence) H1 P1 HF1 ltac:(rewrite bits4; apply Hfin; lia))
    as (m & Hm & Rm).
  rewrite (exec_bind_eq _ _ _ _ Hm). apply mul_complete; assumption.
Qed.

End Scale.
