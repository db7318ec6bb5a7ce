(** Trunc, Floor, Ceil (float/float.go:1047-1136). *)
From Coq Require Import ZArith Reals Bool List Lia Lra ZifyBool.
From Flocq Require Import Core BinarySingleNaN.
From Verif Require Import Field FieldFacts Circuit Hints RangeCheck Gadget FloatModel
  CircuitFacts RangeFacts GadgetFacts RoundFacts Spec RoundCore RepFacts SqrtFacts CmpFacts Tactics.
Local Open Scope Z_scope.

Lemma inv_cancel {MOD : Modulus} {HB : BigMod} w k z :
  0 <= w < modulus -> emb (2 ^ k * w) = emb 1 -> fmul (emb (z * 2 ^ k)) w = emb z.
Proof.
  intros Hw H. rewrite <- (emb_small w Hw). rewrite fmul_emb.
  replace (z * 2 ^ k * w) with (z * (2 ^ k * w)) by ring.
  rewrite <- fmul_emb, H, fmul_emb. f_equal. ring.
Qed.

(** Quotient rounded up. *)
Definition cdiv (a d : Z) : Z := - (- a / d).

Section IntZ.
Variables E M : Z.
(** The exponent used, given the prover's answer to "is the exponent
    non-negative". *)
Definition int_e (x : zf) (c : bool) : Z := if c then ze x else -1.
Definition int_sh (x : zf) (c : bool) : Z := Z.max (M - int_e x c) 0.

Definition ztrunc (x : zf) (c : bool) : zf :=
  let sh := int_sh x c in
  mkZ (zs x) (if c then ze x else E_MIN E M) (zm x / 2 ^ sh * 2 ^ sh) (za x).

Definition floor_q (x : zf) (c : bool) : Z :=
  let sh := int_sh x c in
  if zs x then cdiv (zm x) (2 ^ sh) else zm x / 2 ^ sh.

Definition zfloor (x : zf) (c : bool) : zf :=
  let mt := floor_q x c * 2 ^ int_sh x c in
  let ov := mt =? 2 ^ (M + 1) in
  let m := if ov then 2 ^ M else mt in
  mkZ (zs x)
    (if (m =? 0) && negb (za x) then E_MIN E M else int_e x c + Z.b2z ov)
    m (za x).

Definition sign_ok (z : Z) (c : bool) : Prop :=
  (0 < z -> c = true) /\ (z < 0 -> c = false).
End IntZ.

Section Trunc.
Context {MOD : Modulus} {E M b : Z} {HP : Params E M b} {HF : Format E M}.
#[local] Instance tr_width : Width b (4 * M + 44) := params_width E M b HP.
#[local] Instance tr_big : BigMod := width_big b _ tr_width.

Notation emax := (Spec.emax E).
Notation emin := (Spec.emin E M).

Section Ops.
Variable x : zf.
Hypothesis Hx : zwf (E:=E) (M:=M) x.

Lemma int_bounds c : sign_ok (ze x) c ->
  emin - 1 <= ze x <= emax /\ -1 <= int_e x c <= emax /\ 0 <= int_sh M x c <= M + 1 /\
  0 <= zm x < 2 ^ (M + 1) /\ 2 ^ (M + 1) = 2 ^ int_sh M x c * 2 ^ (M + 1 - int_sh M x c) /\
  2 ^ (2 * M + 2) = 2 ^ (M + 1) * 2 ^ (M + 1).
Proof.
  intros [H1 H2]. params. exps E M. destruct (fmt_M (E:=E) (M:=M)) as [HM [HM1 HM2]].
  destruct Hx as [X1 X2].
  assert (He : -1 <= int_e x c <= emax).
  { unfold int_e. destruct c; [|lia]. destruct (Z_lt_le_dec (ze x) 0) as [Hl|]; [|lia].
    specialize (H2 Hl). discriminate. }
  assert (Hs : 0 <= int_sh M x c <= M + 1) by (unfold int_sh; lia).
  split; [exact X1|]. split; [exact He|]. split; [exact Hs|].
  split; [lia|]. split.
  - rewrite <- Z.pow_add_r by lia. f_equal. lia.
  - rewrite <- Z.pow_add_r by lia. f_equal. lia.
Qed.

Lemma exec_int_prefix {A} (k : Z -> Z -> Z -> Z -> circ A) :
  let c := 0 <=? ze x in
  exists inv, (0 <= inv < modulus /\ emb (2 ^ int_sh M x c * inv) = emb 1) /\
  exec b (e_ge_0 <- IsPositive (emb (ze x)) E ;;
          e <- select e_ge_0 (emb (ze x)) (emb (-1)) ;;
          sh <- GMax (fsub (emb M) e) (emb 0) E ;;
          two_to_e <- QueryPow2 E M sh ;;
          inv <- inverse two_to_e ;;
          k e_ge_0 e two_to_e inv)
  = exec b (k (emb (Z.b2z c)) (emb (int_e x c)) (emb (2 ^ int_sh M x c)) inv).
Proof.
  intros c. assert (Hc : sign_ok (ze x) c) by (unfold c, sign_ok; lia).
  destruct (int_bounds c Hc) as (B1 & B2 & B3 & _).
  params. exps E M.
  destruct (exec_inverse_pow2 b (int_sh M x c) (width_odd (b:=b) (K:=4*M+44)) ltac:(lia))
    as (w & Hw1 & Hw2 & Hw3).
  exists w. split; [split; assumption|].
  xs (exec_IsPositive (b:=b) (K:=4*M+44) (ze x) E ltac:(lia) ltac:(lia) ltac:(lia)).
  fold c. xstep. fold (int_e x c). rewrite fsub_emb.
  xs (exec_GMax (b:=b) (K:=4*M+44) (M - int_e x c) 0 E ltac:(lia) ltac:(lia) ltac:(lia)).
  fold (int_sh M x c).
  xs (exec_QueryPow2 (E:=E) (M:=M) (b:=b) (int_sh M x c) ltac:(lia)).
  xs Hw1. reflexivity.
Qed.

Lemma sat_int_prefix {A} (k : Z -> Z -> Z -> Z -> circ A) r : pow2_size E M mod b = 0 ->
  sat b (e_ge_0 <- IsPositive (emb (ze x)) E ;;
          e <- select e_ge_0 (emb (ze x)) (emb (-1)) ;;
          sh <- GMax (fsub (emb M) e) (emb 0) E ;;
          two_to_e <- QueryPow2 E M sh ;;
          inv <- inverse two_to_e ;;
          k e_ge_0 e two_to_e inv) r ->
  exists c inv, sign_ok (ze x) c /\ (0 <= inv < modulus /\ emb (2 ^ int_sh M x c * inv) = emb 1) /\
    sat b (k (emb (Z.b2z c)) (emb (int_e x c)) (emb (2 ^ int_sh M x c)) inv) r.
Proof.
  intros Hd H. params. exps E M.
  assert (B1 : emin - 1 <= ze x <= emax) by apply Hx.
  assert (Hm1 : 4 * emax <= 2 ^ (4 * M + 44 - 1)) by (rewrite <- Hex6; apply pow2_mono; lia).
  assert (Hm2 : 4 * emax <= 2 ^ (2 * M + 30)) by (rewrite <- Hex6; apply pow2_mono; lia).
  apply sat_bind in H. destruct H as [cv [Hc H]].
  apply (sat_IsPositive (b:=b) (K:=4*M+44) (ze x) E ltac:(lia) ltac:(lia) ltac:(lia)) in Hc.
  destruct Hc as (c & -> & C1 & C2 & _).
  assert (Hc : sign_ok (ze x) c) by (split; assumption).
  destruct (int_bounds c Hc) as (_ & B2 & B3 & _).
  sstep H. fold (int_e x c) in H. rewrite fsub_emb in H.
  apply sat_bind in H. destruct H as [sv [Hs H]].
  apply (sat_GMax (b:=b) (K:=4*M+44) (M - int_e x c) 0 E ltac:(lia) ltac:(lia) ltac:(lia)) in Hs.
  destruct Hs as [-> _]. fold (int_sh M x c) in H.
  apply sat_bind in H. destruct H as [tv [Ht H]].
  apply (sat_QueryPow2 (E:=E) (M:=M) (b:=b) (int_sh M x c) Hd ltac:(lia)) in Ht.
  destruct Ht as [_ ->].
  apply sat_bind in H. destruct H as [iv [Hi H]].
  apply sat_inverse_pow2 in Hi; [|exact (width_odd (b:=b) (K:=4*M+44))|lia].
  exists c, iv. auto.
Qed.

(** The field quotient is an integer. *)
Lemma int_m c inv : sign_ok (ze x) c ->
  0 <= inv < modulus -> emb (2 ^ int_sh M x c * inv) = emb 1 ->
  fmul (fmul (emb (zm x)) (emb (2 ^ (M + 1)))) inv = emb (zm x * 2 ^ (M + 1 - int_sh M x c)).
Proof.
  intros Hc H1 H2. destruct (int_bounds c Hc) as (_ & _ & B3 & B4 & B5 & _).
  rewrite fmul_emb. rewrite B5.
  replace (zm x * (2 ^ int_sh M x c * 2 ^ (M + 1 - int_sh M x c)))
    with (zm x * 2 ^ (M + 1 - int_sh M x c) * 2 ^ int_sh M x c) by ring.
  apply inv_cancel; assumption.
Qed.

Lemma int_div c : sign_ok (ze x) c ->
  zm x * 2 ^ (M + 1 - int_sh M x c) / 2 ^ (M + 1) = zm x / 2 ^ int_sh M x c.
Proof.
  intros Hc. destruct (int_bounds c Hc) as (_ & _ & B3 & B4 & B5 & _). rewrite B5.
  rewrite (Z.mul_comm (2 ^ int_sh M x c)), (Z.mul_comm (zm x)).
  apply Z.div_mul_cancel_l; [apply Z.pow_nonzero|apply Z.pow_nonzero]; lia.
Qed.

Lemma exec_Trunc : exec b (Trunc E M (embF x)) = Some (embF (ztrunc E M x (0 <=? ze x))).
Proof.
  params. exps E M. destruct (fmt_M (E:=E) (M:=M)) as [HM [HM1 HM2]].
  unfold Trunc. cbn [embF Sign Exponent Mantissa IsAbnormal].
  set (c := 0 <=? ze x). assert (Hc : sign_ok (ze x) c) by (unfold c, sign_ok; lia).
  destruct (int_bounds c Hc) as (B1 & B2 & B3 & B4 & B5 & B6).
  match goal with |- exec b (bind _ (fun c0 => bind _ (fun e => bind _ (fun sh => bind _
    (fun t => bind _ (fun inv => @?k c0 e t inv)))))) = _ =>
    destruct (exec_int_prefix k) as (inv & [I1 I2] & ->) end.
  fold c in I2 |- *. cbv beta zeta.
  rewrite (int_m c inv Hc I1 I2).
  set (n := zm x * 2 ^ (M + 1 - int_sh M x c)).
  pose proof (pow_pos (M + 1 - int_sh M x c) ltac:(lia)) as Hp1.
  pose proof (pow_pos (int_sh M x c) ltac:(lia)) as Hp2.
  assert (Hle : 2 ^ (M + 1 - int_sh M x c) <= 2 ^ (M + 1)) by (apply pow2_mono; lia).
  assert (Hn : 0 <= n < 2 ^ (2 * M + 2)).
  { unfold n. rewrite B6. clear - B4 Hp1 Hle. nia. }
  assert (Hmod : 2 ^ (4 * M + 44 - b) <= modulus) by (apply (room (b:=b) (K:=4*M+44)); lia).
  assert (Hmm : 2 ^ (2 * M + 2) <= 2 ^ (4 * M + 44 - b)) by (apply pow2_mono; lia).
  assert (Hh : TruncHint (emb n) (M + 1) = Some (zm x / 2 ^ int_sh M x c)).
  { unfold TruncHint. rewrite emb_small by lia. rewrite Z.shiftr_div_pow2 by lia.
    unfold n. rewrite int_div by exact Hc. reflexivity. }
  rewrite Hh. xstep. femb.
  set (q := zm x / 2 ^ int_sh M x c).
  assert (Hq : q = n / 2 ^ (M + 1)) by (unfold n; rewrite int_div by exact Hc; reflexivity).
  assert (Hq1 : 0 <= q <= zm x).
  { unfold q. split; [apply Z.div_pos; lia|]. apply Z.div_le_upper_bound; [lia|].
    clear - Hp2 B4. nia. }
  pose proof (Z.div_mod n (2 ^ (M + 1)) ltac:(lia)) as Hdm. rewrite <- Hq in Hdm.
  pose proof (Z.mod_pos_bound n (2 ^ (M + 1)) ltac:(lia)) as Hmb.
  rewrite exec_bind_eq with (a := tt) by (apply (exec_abl (K:=4*M+44)); lia).
  rewrite exec_bind_eq with (a := tt).
  2:{ apply (exec_abl (K:=4*M+44)); [lia|lia|].
      rewrite Z.mul_comm. clear - Hdm Hmb. lia. }
  xstep. unfold ztrunc. fold c. cbv zeta. fold q. reflexivity.
Qed.

(** Uniqueness of the quotient in any accepted run. *)
Lemma int_q_unique n q : 0 <= n < 2 ^ (2 * M + 2) -> 0 <= q < modulus ->
  range_ok b q (M + 1) Loose ->
  range_ok b (fsub (emb n) (fmul q (emb (2 ^ (M + 1))))) (M + 1) TightForSmallAbs ->
  q = emb (n / 2 ^ (M + 1)).
Proof.
  intros Hn Hq H1 H2. params. destruct (fmt_M (E:=E) (M:=M)) as [HM [HM1 HM2]].
  destruct (cap_room (b:=b) (K:=4*M+44) (M + 1) ltac:(lia) ltac:(lia)) as (C1 & C2 & C3 & C4 & C5).
  pose proof (capacity_bounds b (M + 1) ltac:(lia) ltac:(lia)) as [_ [Cc _]].
  assert (Ccp : 2 ^ capacity b (M + 1) <= 2 ^ (M + 18)) by (apply pow2_mono; lia).
  apply range_ok_iff in H1; [|lia..]. cbn in H1.
  rewrite <- (emb_small q Hq) in H2. femb_in H2.
  assert (Hp : 2 ^ (M + 18) * 2 ^ (M + 1) = 2 ^ (2 * M + 19)) by (rewrite <- Z.pow_add_r by lia; f_equal; lia).
  assert (Hp2 : 2 * 2 ^ (2 * M + 19) <= 2 ^ (4 * M + 44 - b)).
  { rewrite <- Z.pow_succ_r by lia. apply pow2_mono; lia. }
  assert (Hp3 : 2 ^ (2 * M + 2) <= 2 ^ (2 * M + 19)) by (apply pow2_mono; lia).
  assert (Hqp : 0 <= q * 2 ^ (M + 1) <= 2 ^ (2 * M + 19)).
  { rewrite <- Hp. clear - H1 Hq Ccp HM1 HM2. nia. }
  apply (check_small (K:=4*M+44)) in H2; [|lia|lia|lia].
  rewrite <- (emb_small q Hq). f_equal.
  apply Z.div_unique with (n - q * 2 ^ (M + 1)); [left; exact H2|ring].
Qed.

Lemma sat_Trunc r : pow2_size E M mod b = 0 ->
  sat b (Trunc E M (embF x)) r ->
  exists c, sign_ok (ze x) c /\ r = embF (ztrunc E M x c).
Proof.
  intros Hd H. params. exps E M. destruct (fmt_M (E:=E) (M:=M)) as [HM [HM1 HM2]].
  unfold Trunc in H. cbn [embF Sign Exponent Mantissa IsAbnormal] in H.
  match type of H with sat b (bind _ (fun c0 => bind _ (fun e => bind _ (fun sh => bind _
    (fun t => bind _ (fun inv => @?k c0 e t inv)))))) _ =>
    destruct (sat_int_prefix k _ Hd H) as (c & inv & Hc & [I1 I2] & H') end.
  clear H. rename H' into H. exists c. split; [exact Hc|].
  destruct (int_bounds c Hc) as (B1 & B2 & B3 & B4 & B5 & B6).
  cbv beta zeta in H. rewrite (int_m c inv Hc I1 I2) in H.
  set (n := zm x * 2 ^ (M + 1 - int_sh M x c)) in *.
  pose proof (pow_pos (M + 1 - int_sh M x c) ltac:(lia)) as Hp1.
  assert (Hle : 2 ^ (M + 1 - int_sh M x c) <= 2 ^ (M + 1)) by (apply pow2_mono; lia).
  assert (Hn : 0 <= n < 2 ^ (2 * M + 2)).
  { unfold n. rewrite B6. clear - B4 Hp1 Hle. nia. }
  shint H q Hq. scheck H Hc1. scheck H Hc2.
  apply int_q_unique in Hc2; [|assumption..]. subst q.
  unfold n in H. rewrite int_div in H by exact Hc.
  femb_in H. sstep H. apply sat_ret_inv in H. rewrite <- H. reflexivity.
Qed.

(** ** Floor *)

Lemma int_cdiv c : sign_ok (ze x) c ->
  cdiv (zm x * 2 ^ (M + 1 - int_sh M x c)) (2 ^ (M + 1)) = cdiv (zm x) (2 ^ int_sh M x c).
Proof.
  intros Hc. destruct (int_bounds c Hc) as (_ & _ & B3 & B4 & B5 & _). unfold cdiv. rewrite B5.
  f_equal. rewrite (Z.mul_comm (2 ^ int_sh M x c)), (Z.mul_comm (zm x)), <- Z.mul_opp_r.
  apply Z.div_mul_cancel_l; [apply Z.pow_nonzero|apply Z.pow_nonzero]; lia.
Qed.

Lemma cdiv_bounds a d : 0 < d -> 0 <= a -> 0 <= cdiv a d /\ cdiv a d <= a /\
  0 <= cdiv a d * d - a < d.
Proof.
  intros Hd Ha. unfold cdiv.
  pose proof (Z.div_mod (- a) d ltac:(lia)). pose proof (Z.mod_pos_bound (- a) d Hd).
  set (q := - a / d) in *. clearbody q. set (r := - a mod d) in *. clearbody r.
  clear - H H0 Hd Ha. Lia.nia.
Qed.

Lemma cdiv_hint n d : 0 < d -> 0 <= n ->
  (if n / d * d =? n then n / d else n / d + 1) = cdiv n d.
Proof.
  intros Hd Hn. unfold cdiv.
  pose proof (Z.div_mod n d ltac:(lia)). pose proof (Z.mod_pos_bound n d Hd).
  pose proof (Z.div_mod (- n) d ltac:(lia)). pose proof (Z.mod_pos_bound (- n) d Hd).
  set (q := n / d) in *. set (r := n mod d) in *. set (q' := - n / d) in *. set (r' := - n mod d) in *.
  clearbody q r q' r'. clear - H H0 H1 H2.
  destruct (Z.eqb_spec (q * d) n); Lia.nia.
Qed.

Lemma floor_q_bounds c : sign_ok (ze x) c -> 0 <= floor_q M x c <= zm x /\
  0 <= floor_q M x c * 2 ^ int_sh M x c <= 2 ^ (M + 1).
Proof.
  intros Hc. destruct (int_bounds c Hc) as (B1 & B2 & B3 & B4 & B5 & B6).
  pose proof (pow_pos (int_sh M x c) ltac:(lia)) as Hp.
  pose proof (pow_pos (M + 1 - int_sh M x c) ltac:(lia)) as Hp2.
  unfold floor_q. cbv zeta. destruct (zs x).
  - destruct (cdiv_bounds (zm x) (2 ^ int_sh M x c) Hp ltac:(lia)) as (D1 & D2 & D3).
    split; [lia|]. split; [clear - D1 Hp; nia|].
    rewrite B5. rewrite B5 in B4. rewrite (Z.mul_comm (2 ^ int_sh M x c)).
    apply Z.mul_le_mono_nonneg_r; [lia|].
    set (q := cdiv _ _) in *. clearbody q. clear - D3 B4 Hp. nia.
  - pose proof (Z.div_mod (zm x) (2 ^ int_sh M x c) ltac:(lia)) as D1.
    pose proof (Z.mod_pos_bound (zm x) (2 ^ int_sh M x c) Hp) as D2.
    assert (0 <= zm x / 2 ^ int_sh M x c) by (apply Z.div_pos; lia).
    set (q := zm x / _) in *. clearbody q. set (rr := zm x mod _) in *. clearbody rr.
    clear - D1 D2 B4 Hp H. nia.
Qed.

Lemma exec_Floor : exec b (Floor E M (embF x)) = Some (embF (zfloor E M x (0 <=? ze x))).
Proof.
  params. exps E M. destruct (fmt_M (E:=E) (M:=M)) as [HM [HM1 HM2]].
  unfold Floor. cbn [embF Sign Exponent Mantissa IsAbnormal].
  set (c := 0 <=? ze x). assert (Hc : sign_ok (ze x) c) by (unfold c, sign_ok; lia).
  destruct (int_bounds c Hc) as (B1 & B2 & B3 & B4 & B5 & B6).
  match goal with |- exec b (bind _ (fun c0 => bind _ (fun e => bind _ (fun sh => bind _
    (fun t => bind _ (fun inv => @?k c0 e t inv)))))) = _ =>
    destruct (exec_int_prefix k) as (inv & [I1 I2] & ->) end.
  fold c in I2 |- *. cbv beta zeta.
  rewrite (int_m c inv Hc I1 I2).
  set (n := zm x * 2 ^ (M + 1 - int_sh M x c)).
  pose proof (pow_pos (M + 1 - int_sh M x c) ltac:(lia)) as Hp1.
  pose proof (pow_pos (int_sh M x c) ltac:(lia)) as Hp2.
  assert (Hle : 2 ^ (M + 1 - int_sh M x c) <= 2 ^ (M + 1)) by (apply pow2_mono; lia).
  assert (Hn : 0 <= n < 2 ^ (2 * M + 2)).
  { unfold n. rewrite B6. clear - B4 Hp1 Hle. nia. }
  assert (Hmod : 2 ^ (4 * M + 44 - b) <= modulus) by (apply (room (b:=b) (K:=4*M+44)); lia).
  assert (Hmm : 2 ^ (2 * M + 2) <= 2 ^ (4 * M + 44 - b)) by (apply pow2_mono; lia).
  assert (Hmm2 : 4 * 2 ^ (M + 1) <= 2 ^ (4 * M + 44 - b)).
  { change 4 with (2 ^ 2). rewrite <- Z.pow_add_r by lia. apply pow2_mono; lia. }
  set (q := floor_q M x c).
  assert (Hq : q = if zs x then cdiv n (2 ^ (M + 1)) else n / 2 ^ (M + 1)).
  { unfold q, floor_q, n. cbv zeta. rewrite int_div, int_cdiv by exact Hc. reflexivity. }
  assert (Hh : FloorHint (emb n) (M + 1) (emb (Z.b2z (zs x))) = Some q).
  { unfold FloorHint. rewrite (emb_small n) by lia. rewrite Z.shiftr_div_pow2 by lia.
    rewrite Z.shiftl_mul_pow2 by lia. rewrite emb_b2z. rewrite Hq.
    destruct (zs x); cbn [Z.b2z].
    - change (u64 1 =? 1) with true. cbn [andb].
      rewrite <- cdiv_hint by lia. destruct (n / 2 ^ (M + 1) * 2 ^ (M + 1) =? n); reflexivity.
    - change (u64 0 =? 1) with false. reflexivity. }
  rewrite Hh. xstep. femb.
  destruct (floor_q_bounds c Hc) as [Q1 Q2]. fold q in Q1, Q2.
  assert (Hr : 0 <= (if zs x then - (n - q * 2 ^ (M + 1)) else n - q * 2 ^ (M + 1)) < 2 ^ (M + 1)).
  { rewrite Hq. destruct (zs x).
    - destruct (cdiv_bounds n (2 ^ (M + 1)) ltac:(lia) ltac:(lia)) as (_ & _ & D3). clear - D3. lia.
    - pose proof (Z.div_mod n (2 ^ (M + 1)) ltac:(lia)) as D1.
      pose proof (Z.mod_pos_bound n (2 ^ (M + 1)) ltac:(lia)) as D2.
      rewrite Z.mul_comm. clear - D1 D2. lia. }
  rewrite exec_bind_eq with (a := tt) by (apply (exec_abl (K:=4*M+44)); lia).
  xstep.
  rewrite exec_bind_eq with (a := tt).
  2:{ apply (exec_abl (K:=4*M+44)); [lia|lia|exact Hr]. }
  rewrite IsEq_emb by lia.
  xstep. femb.
  assert (Hsel : 0 <= (if q * 2 ^ int_sh M x c =? 2 ^ (M + 1) then 2 ^ M else q * 2 ^ int_sh M x c) < modulus).
  { destruct (_ =? _); lia. }
  rewrite isZero_emb by lia.
  replace (emb (1 - Z.b2z (za x))) with (emb (Z.b2z (negb (za x)))) by (destruct (za x); reflexivity).
  repeat xstep. rewrite exec_ret. unfold zfloor. fold q. reflexivity.
Qed.

Lemma sat_Floor r : pow2_size E M mod b = 0 ->
  sat b (Floor E M (embF x)) r ->
  exists c, sign_ok (ze x) c /\ r = embF (zfloor E M x c).
Proof.
  intros Hd H. params. exps E M. destruct (fmt_M (E:=E) (M:=M)) as [HM [HM1 HM2]].
  unfold Floor in H. cbn [embF Sign Exponent Mantissa IsAbnormal] in H.
  match type of H with sat b (bind _ (fun c0 => bind _ (fun e => bind _ (fun sh => bind _
    (fun t => bind _ (fun inv => @?k c0 e t inv)))))) _ =>
    destruct (sat_int_prefix k _ Hd H) as (c & inv & Hc & [I1 I2] & H') end.
  clear H. rename H' into H. exists c. split; [exact Hc|].
  destruct (int_bounds c Hc) as (B1 & B2 & B3 & B4 & B5 & B6).
  cbv beta zeta in H. rewrite (int_m c inv Hc I1 I2) in H.
  set (n := zm x * 2 ^ (M + 1 - int_sh M x c)) in *.
  pose proof (pow_pos (M + 1 - int_sh M x c) ltac:(lia)) as Hp1.
  assert (Hle : 2 ^ (M + 1 - int_sh M x c) <= 2 ^ (M + 1)) by (apply pow2_mono; lia).
  assert (Hn : 0 <= n < 2 ^ (2 * M + 2)).
  { unfold n. rewrite B6. clear - B4 Hp1 Hle. nia. }
  assert (Hmod : 2 ^ (4 * M + 44 - b) <= modulus) by (apply (room (b:=b) (K:=4*M+44)); lia).
  assert (Hmm2 : 4 * 2 ^ (M + 1) <= 2 ^ (4 * M + 44 - b)).
  { change 4 with (2 ^ 2). rewrite <- Z.pow_add_r by lia. apply pow2_mono; lia. }
  shint H q Hq. scheck H Hc1.
  destruct (floor_q_bounds c Hc) as [Q1 Q2].
  assert (Hqq : q = emb (floor_q M x c) /\
    exists rr, sat b (rabs <- select (emb (Z.b2z (zs x)))
        (fneg (fsub (emb n) (fmul q (emb (2 ^ (M + 1)))))) (fsub (emb n) (fmul q (emb (2 ^ (M + 1))))) ;; Ret rabs) rr).
  { apply sat_bind in H. destruct H as [rv [Hr H]]. scheck H Hc2.
    split; [|exists rv; apply sat_bind; exists rv; split; [exact Hr|apply sat_ret; reflexivity]].
    apply sat_select in Hr. destruct Hr as [s' [Hs' ->]].
    apply b2z_inj in Hs'. subst s'.
    unfold floor_q. cbv zeta. rewrite <- int_div, <- int_cdiv by exact Hc. fold n.
    destruct (zs x).
    - (* negative: the quotient is rounded up *)
      destruct (cap_room (b:=b) (K:=4*M+44) (M + 1) ltac:(lia) ltac:(lia)) as (C1 & C2 & C3 & C4 & C5).
      pose proof (capacity_bounds b (M + 1) ltac:(lia) ltac:(lia)) as [_ [Cc _]].
      assert (Ccp : 2 ^ capacity b (M + 1) <= 2 ^ (M + 18)) by (apply pow2_mono; lia).
      apply range_ok_iff in Hc1; [|lia..]. cbn in Hc1.
      rewrite <- (emb_small q Hq) in Hc2. femb_in Hc2.
      assert (Hp : 2 ^ (M + 18) * 2 ^ (M + 1) = 2 ^ (2 * M + 19)) by (rewrite <- Z.pow_add_r by lia; f_equal; lia).
      assert (Hp2 : 2 * 2 ^ (2 * M + 19) <= 2 ^ (4 * M + 44 - b)).
      { rewrite <- Z.pow_succ_r by lia. apply pow2_mono; lia. }
      assert (Hp3 : 2 ^ (2 * M + 2) <= 2 ^ (2 * M + 19)) by (apply pow2_mono; lia).
      assert (Hqp : 0 <= q * 2 ^ (M + 1) <= 2 ^ (2 * M + 19)).
      { rewrite <- Hp. clear - Hc1 Hq Ccp HM1 HM2. nia. }
      apply (check_small (K:=4*M+44)) in Hc2; [|lia|lia|lia].
      rewrite <- (emb_small q Hq). f_equal. unfold cdiv.
      rewrite <- (Z.div_unique (- n) (2 ^ (M + 1)) (- q) (- (n - q * 2 ^ (M + 1)))); [ring|left; exact Hc2|ring].
    - apply int_q_unique; assumption. }
  destruct Hqq as [-> _]. femb_in H.
  sstep H. scheck H Hc2.
  rewrite IsEq_emb in H by lia.
  sstep H.
  assert (Hsel : 0 <= (if floor_q M x c * 2 ^ int_sh M x c =? 2 ^ (M + 1) then 2 ^ M else floor_q M x c * 2 ^ int_sh M x c) < modulus).
  { destruct (_ =? _); lia. }
  rewrite isZero_emb in H by lia. femb_in H.
  replace (emb (1 - Z.b2z (za x))) with (emb (Z.b2z (negb (za x)))) in H by (destruct (za x); reflexivity).
  repeat sstep H. apply sat_ret_inv in H. rewrite <- H. reflexivity.
Qed.

End Ops.
End Trunc.
