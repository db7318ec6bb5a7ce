(** What the range checks of gadget/rangecheck.go mean. *)
From Coq Require Import ZArith Znumtheory List Bool Lia ZifyBool.
From Verif Require Import Field FieldFacts Circuit RangeCheck CircuitFacts.
Import ListNotations.
Local Open Scope Z_scope.

(** Integer value of a little-endian list of base-[2^b] digits. *)
Fixpoint zc (b : Z) (ws : list Z) : Z :=
  match ws with
  | [] => 0
  | w :: t => w + 2 ^ b * zc b t
  end.

Lemma zc_range b ws : 0 <= b -> Forall (fun w => 0 <= w < 2 ^ b) ws ->
  0 <= zc b ws < 2 ^ (b * Z.of_nat (length ws)).
Proof.
  intros Hb H. induction H as [|w t Hw Ht IH].
  - simpl. rewrite Z.mul_0_r. simpl. lia.
  - change (zc b (w :: t)) with (w + 2 ^ b * zc b t).
    replace (b * Z.of_nat (length (w :: t))) with (b + b * Z.of_nat (length t))
      by (simpl length; lia).
    rewrite Z.pow_add_r by lia. nia.
Qed.

Lemma zc_last b ws d : 0 <= d <= b -> ws <> [] ->
  Forall (fun w => 0 <= w < 2 ^ b) ws ->
  (last ws 0 < 2 ^ (b - d) <-> zc b ws < 2 ^ (b * Z.of_nat (length ws) - d)).
Proof.
  intros Hd Hne H. induction H as [|w t Hw Ht IH]; [congruence|].
  destruct t as [|w' t'].
  - simpl. rewrite Z.mul_0_r, Z.add_0_r, Z.mul_1_r. tauto.
  - rewrite (IH ltac:(discriminate)).
    change (zc b (w :: w' :: t')) with (w + 2 ^ b * zc b (w' :: t')).
    set (t := w' :: t') in *.
    replace (b * Z.of_nat (length (w :: t)) - d)
      with (b + (b * Z.of_nat (length t) - d)) by (simpl length; lia).
    assert (0 <= b * Z.of_nat (length t) - d) by (unfold t; simpl length; nia).
    rewrite Z.pow_add_r by lia. nia.
Qed.

Lemma digits_loop_length n b t : length (digits_loop n b t) = n.
Proof. revert t. induction n; intros t; simpl; auto. Qed.

Lemma digits_loop_range n b t : 0 <= b ->
  Forall (fun w => 0 <= w < 2 ^ b) (digits_loop n b t).
Proof.
  intros Hb. revert t. induction n as [|n IH]; intros t; simpl; constructor.
  - apply Z.mod_pos_bound. apply Z.pow_pos_nonneg; lia.
  - apply IH.
Qed.

Lemma digits_loop_zc n b t : 0 <= b ->
  zc b (digits_loop n b t) = t mod 2 ^ (b * Z.of_nat n).
Proof.
  intros Hb. revert t. induction n as [|n IH]; intros t.
  - simpl. rewrite Z.mul_0_r. simpl. rewrite Z.mod_1_r. reflexivity.
  - simpl digits_loop.
    change (zc b ((t mod 2 ^ b) :: digits_loop n b (Z.shiftr t b)))
      with (t mod 2 ^ b + 2 ^ b * zc b (digits_loop n b (Z.shiftr t b))).
    rewrite IH, Z.shiftr_div_pow2 by lia.
    replace (b * Z.of_nat (S n)) with (b + b * Z.of_nat n) by lia.
    rewrite Z.pow_add_r by lia.
    rewrite Z.rem_mul_r; [reflexivity| |].
    + apply Z.pow_nonzero; lia.
    + apply Z.pow_pos_nonneg; lia.
Qed.

Section Range.
Context {MOD : Modulus} {HB : BigMod}.
Let Hp : 2 < modulus := HB.

Lemma recompose_zc b ws i : 0 <= b -> 0 <= i ->
  Forall (fun w => 0 <= w < modulus) ws ->
  recompose b ws i = emb (2 ^ (b * i) * zc b ws).
Proof.
  intros Hb Hi H. revert i Hi. induction H as [|w t Hw Ht IH]; intros i Hi.
  - simpl. rewrite Z.mul_0_r. reflexivity.
  - simpl recompose. rewrite IH by lia.
    rewrite <- (emb_small w Hw) at 1. rewrite fmul_emb, fadd_emb. f_equal.
    change (zc b (w :: t)) with (w + 2 ^ b * zc b t).
    replace (b * (i + 1)) with (b * i + b) by lia.
    rewrite Z.pow_add_r by nia. ring.
Qed.

Lemma compose_zc b ws : 0 <= b -> Forall (fun w => 0 <= w < modulus) ws ->
  compose b ws = emb (zc b ws).
Proof.
  intros Hb H. unfold compose. rewrite recompose_zc by (assumption || lia).
  rewrite Z.mul_0_r. f_equal. lia.
Qed.

(** The number of bits covered by the limbs. *)
Definition capacity (b bits : Z) : Z := decompSize bits b * b.

Lemma capacity_bounds b bits : 1 <= b -> 1 <= bits ->
  1 <= decompSize bits b /\ bits <= capacity b bits <= bits + b - 1 /\
  b <= capacity b bits.
Proof.
  intros Hb Hn. unfold capacity, decompSize.
  pose proof (Z.div_mod (bits + b - 1) b ltac:(lia)) as Hd.
  pose proof (Z.mod_pos_bound (bits + b - 1) b ltac:(lia)) as Hm.
  set (q := (bits + b - 1) / b) in *. set (r := (bits + b - 1) mod b) in *.
  assert (1 <= q) by nia. nia.
Qed.

Lemma capacity_dvd b bits : 1 <= b -> 1 <= bits -> bits mod b = 0 -> capacity b bits = bits.
Proof.
  intros Hb Hn Hm. unfold capacity, decompSize.
  pose proof (Z.div_mod (bits + b - 1) b ltac:(lia)) as Hd.
  pose proof (Z.mod_pos_bound (bits + b - 1) b ltac:(lia)).
  pose proof (Z.div_mod bits b ltac:(lia)).
  set (q := (bits + b - 1) / b) in *. set (r := (bits + b - 1) mod b) in *.
  assert (q = bits / b) by nia. nia.
Qed.

(** The acceptance condition of one check, as a predicate on integers. *)
Definition range_spec (b v bits : Z) (m : mode) : Prop :=
  match m with
  | Loose => v < 2 ^ capacity b bits
  | TightForUnknownRange => v < 2 ^ bits
  | TightForSmallAbs => fmul v (emb (2 ^ (capacity b bits - bits))) < 2 ^ capacity b bits
  end.

Lemma in_range_table_spec b v : in_range_table b v = true <-> 0 <= v < 2 ^ b.
Proof. unfold in_range_table. lia. Qed.

Lemma forallb_table b ws :
  forallb (in_range_table b) ws = true <-> Forall (fun w => 0 <= w < 2 ^ b) ws.
Proof.
  rewrite forallb_forall, Forall_forall. split; intros H x Hx.
  - apply in_range_table_spec, H, Hx.
  - apply in_range_table_spec, H, Hx.
Qed.

Lemma range_ok_unfold b v bits m :
  range_ok b v bits m
  <-> exists ds, satG no_check (commit_item b (mkCheck v bits m)) ds /\
                 Forall (fun w => 0 <= w < 2 ^ b) ds.
Proof.
  unfold range_ok, commit_with, commit_items. rewrite satG_bind. split.
  - intros [ds [H1 H2]]. apply satG_bind in H1. destruct H1 as [d [H1 H3]].
    apply satG_bind in H3. destruct H3 as [d' [H3 H4]]. simpl in H3, H4. subst.
    simpl in H2. destruct H2 as [H2 _]. rewrite app_nil_r in H2.
    apply forallb_table in H2. eauto.
  - intros [ds [H1 H2]]. exists ds. split.
    + apply satG_bind. exists ds. split; [exact H1|].
      apply satG_bind. exists []. split; [reflexivity|]. simpl. apply app_nil_r.
    + simpl. split; [|reflexivity]. apply forallb_table. exact H2.
Qed.

Lemma fmul_small v k : 0 <= v -> 0 <= v * 2 ^ k < modulus ->
  fmul v (emb (2 ^ k)) = v * 2 ^ k.
Proof.
  intros Hv H. unfold fmul, emb. rewrite Zmult_mod_idemp_r.
  apply Z.mod_small. exact H.
Qed.

Lemma pow2_mono a c : 0 <= a <= c -> 2 ^ a <= 2 ^ c.
Proof. intros H. apply Z.pow_le_mono_r; lia. Qed.

Lemma scaled_last b d v : 1 <= b -> 0 <= d < b -> 2 ^ (2 * b) <= modulus ->
  0 <= v < 2 ^ b ->
  (0 <= fmul v (emb (2 ^ d)) < 2 ^ b <-> v < 2 ^ (b - d)).
Proof.
  intros Hb Hd Hm Hv.
  assert (Hpos : 0 < 2 ^ d) by (apply Z.pow_pos_nonneg; lia).
  assert (Hsplit : 2 ^ b = 2 ^ (b - d) * 2 ^ d)
    by (rewrite <- Z.pow_add_r by lia; f_equal; lia).
  assert (Hlt : v * 2 ^ d < modulus).
  { apply Z.lt_le_trans with (2 ^ (2 * b)); [|exact Hm].
    replace (2 * b) with (b + b) by lia. rewrite Z.pow_add_r by lia.
    assert (2 ^ d <= 2 ^ b) by (apply pow2_mono; lia). nia. }
  rewrite fmul_small by nia. rewrite Hsplit. nia.
Qed.

Lemma range_ok_iff b v bits m :
  1 <= b -> 1 <= bits -> 0 <= v < modulus ->
  2 ^ capacity b bits <= modulus -> 2 ^ (2 * b) <= modulus ->
  (range_ok b v bits m <-> range_spec b v bits m).
Proof.
  intros Hb Hn Hv Hc H2b. rewrite range_ok_unfold.
  pose proof (capacity_bounds b bits Hb Hn) as [Hl [Hcap Hcb]].
  unfold commit_item. cbn [ck_v ck_bits ck_mode].
  fold (capacity b bits).
  set (d := capacity b bits - bits) in *.
  assert (Hd : 0 <= d < b) by lia.
  assert (Hbm : 2 ^ b <= modulus).
  { apply Z.le_trans with (2 ^ (2 * b)); [apply pow2_mono; lia|exact H2b]. }
  destruct (Z.eqb_spec (decompSize bits b) 1) as [H1|H1].
  - assert (Hcb1 : capacity b bits = b) by (unfold capacity; rewrite H1; lia).
    assert (Hbits : bits = b - d) by lia.
    destruct m; cbn [mode_eqb andb app].
    + unfold range_spec. rewrite Hcb1. split.
      * intros [ds [H H']]. simpl in H. subst ds. apply Forall_inv in H'. simpl in H'. lia.
      * intros H. exists [v]. split; [reflexivity|]. repeat constructor; lia.
    + unfold range_spec. rewrite Hcb1. fold d.
      replace (b - bits) with d by lia. split.
      * intros [ds [H H']]. simpl in H. subst ds. apply Forall_inv in H'. simpl in H'. lia.
      * intros H. exists [fmul v (emb (2 ^ d))]. split; [reflexivity|].
        constructor; [|constructor]. pose proof (fmul_range v (emb (2 ^ d))). lia.
    + unfold range_spec. destruct (Z.eqb_spec d 0) as [Hd0|Hd0]; cbn [negb].
      * split.
        -- intros [ds [H H']]. simpl in H. subst ds. apply Forall_inv in H'. simpl in H'.
           replace bits with b by lia. lia.
        -- intros H. exists [v]. split; [reflexivity|].
           replace bits with b in H by lia. repeat constructor; lia.
      * split.
        -- intros [ds [H H']]. simpl in H. subst ds.
           pose proof (Forall_inv H') as Hv1. pose proof (Forall_inv (Forall_inv_tail H')) as Hv2.
           cbv beta in Hv1, Hv2.
           rewrite Hbits. apply scaled_last; assumption.
        -- intros H. exists [v; fmul v (emb (2 ^ d))]. split; [reflexivity|].
           assert (Hvb : 0 <= v < 2 ^ b).
           { split; [lia|]. eapply Z.lt_le_trans; [exact H|]. apply pow2_mono; lia. }
           constructor; [exact Hvb|]. constructor; [|constructor].
           apply scaled_last; try assumption. rewrite <- Hbits. exact H.
  - assert (Hdl : forall t, length (digits_loop (Z.to_nat (decompSize bits b)) b t)
                            = Z.to_nat (decompSize bits b))
      by (intros; apply digits_loop_length).
    assert (Hlen : forall A (l : list A), length l = Z.to_nat (decompSize bits b) ->
              b * Z.of_nat (length l) = capacity b bits).
    { intros A l H. rewrite H, Z2Nat.id by lia. unfold capacity. lia. }
    set (scale := if mode_eqb m TightForSmallAbs then 2 ^ d else 1).
    set (hs := DecomposeHint bits b v scale).
    assert (Hhs : length (map Some hs) = Z.to_nat (decompSize bits b)).
    { rewrite map_length. apply Hdl. }
    set (target := if mode_eqb m TightForSmallAbs then fmul v (emb (2 ^ d)) else v).
    assert (Htr : 0 <= target < modulus)
      by (unfold target; destruct m; simpl; try exact Hv; apply fmul_range).
    assert (Hcore : forall ds,
      satG no_check
       (limbs <- hints (map Some hs);;
        (if mode_eqb m TightForSmallAbs
         then assert_eq (fmul v (emb scale)) (compose b limbs)
         else assert_eq v (compose b limbs)) ;;;
        Ret (limbs ++
             (if mode_eqb m TightForUnknownRange && negb (d =? 0)
              then [fmul (last limbs 0) (emb (2 ^ d))] else []))) ds
      <-> exists limbs, length limbs = Z.to_nat (decompSize bits b) /\
            Forall (fun w => 0 <= w < modulus) limbs /\
            target = emb (zc b limbs) /\
            ds = limbs ++ (if mode_eqb m TightForUnknownRange && negb (d =? 0)
                           then [fmul (last limbs 0) (emb (2 ^ d))] else [])).
    { intros ds. rewrite satG_bind. split.
      - intros [limbs [HL H]]. apply satG_hints in HL. destruct HL as [HL1 HL2].
        rewrite Hhs in HL1. apply satG_bind in H. destruct H as [u [HA HR]].
        simpl in HR. exists limbs. split; [exact HL1|]. split; [exact HL2|].
        split; [|symmetry; exact HR].
        rewrite <- compose_zc by (lia || assumption).
        unfold target, scale in *.
        destruct m; simpl in HA |- *; destruct HA as [HA _]; apply Z.eqb_eq in HA; exact HA.
      - intros [limbs [HL1 [HL2 [HT ->]]]]. exists limbs. split.
        + apply satG_hints. rewrite Hhs. auto.
        + apply satG_bind. exists tt. split; [|reflexivity].
          rewrite <- compose_zc in HT by (lia || assumption).
          unfold target, scale in *.
          destruct m; simpl in HT |- *; split; try reflexivity; apply Z.eqb_eq; exact HT. }
    assert (Hex : (exists ds,
      satG no_check
       (limbs <- hints (map Some hs);;
        (if mode_eqb m TightForSmallAbs
         then assert_eq (fmul v (emb scale)) (compose b limbs)
         else assert_eq v (compose b limbs)) ;;;
        Ret (limbs ++
             (if mode_eqb m TightForUnknownRange && negb (d =? 0)
              then [fmul (last limbs 0) (emb (2 ^ d))] else []))) ds /\
        Forall (fun w => 0 <= w < 2 ^ b) ds)
      <-> (target < 2 ^ capacity b bits /\
           (m = TightForUnknownRange -> d <> 0 -> target < 2 ^ bits))).
    { split.
      - intros [ds [H HF]]. apply Hcore in H. destruct H as [limbs [HL1 [HL2 [HT ->]]]].
        apply Forall_app in HF. destruct HF as [HF1 HF2].
        pose proof (zc_range b limbs ltac:(lia) HF1) as Hz.
        rewrite (Hlen _ _ HL1) in Hz.
        assert (Htz : target = zc b limbs) by (rewrite HT; apply emb_small; lia).
        split; [lia|]. intros -> Hd0. simpl in HF2.
        destruct (Z.eqb_spec d 0); [contradiction|]. simpl in HF2.
        pose proof (Forall_inv HF2) as HF3; cbv beta in HF3.
        assert (Hne : limbs <> []).
        { intros ->. simpl in HL1. lia. }
        assert (Hlast : 0 <= last limbs 0 < 2 ^ b).
        { rewrite Forall_forall in HF1. apply HF1.
          destruct (exists_last Hne) as [l' [a Ha]]. rewrite Ha, last_last.
          apply in_or_app. right. left. reflexivity. }
        apply scaled_last in HF3; try assumption.
        rewrite (zc_last b limbs d ltac:(lia) Hne HF1) in HF3.
        rewrite (Hlen _ _ HL1) in HF3. replace bits with (capacity b bits - d) by lia. lia.
      - intros [Ht1 Ht2].
        set (limbs := digits_loop (Z.to_nat (decompSize bits b)) b target).
        assert (HL1 : length limbs = Z.to_nat (decompSize bits b)) by apply Hdl.
        assert (HF1 : Forall (fun w => 0 <= w < 2 ^ b) limbs)
          by (apply digits_loop_range; lia).
        assert (Hz : zc b limbs = target).
        { unfold limbs. rewrite digits_loop_zc by lia. rewrite Z2Nat.id by lia.
          replace (b * decompSize bits b) with (capacity b bits)
            by (unfold capacity; lia).
          apply Z.mod_small. lia. }
        eexists. split.
        + apply Hcore. exists limbs. split; [exact HL1|]. split.
          { eapply Forall_impl; [|exact HF1]. simpl. intros a Ha. lia. }
          split; [|reflexivity]. rewrite Hz. symmetry. apply emb_small. lia.
        + apply Forall_app. split; [exact HF1|].
          destruct (mode_eqb m TightForUnknownRange && negb (d =? 0)) eqn:E; [|constructor].
          assert (Hm : m = TightForUnknownRange) by (destruct m; simpl in E; congruence).
          assert (Hd0 : d <> 0) by (subst m; simpl in E; lia).
          specialize (Ht2 Hm Hd0).
          assert (Hne : limbs <> []).
          { intros H0. rewrite H0 in HL1. simpl in HL1. lia. }
          constructor; [|constructor].
          apply scaled_last; try assumption.
          * rewrite Forall_forall in HF1. apply HF1.
            destruct (exists_last Hne) as [l' [a Ha]]. rewrite Ha, last_last.
            apply in_or_app. right. left. reflexivity.
          * rewrite (zc_last b limbs d ltac:(lia) Hne HF1), (Hlen _ _ HL1), Hz.
            replace (capacity b bits - d) with bits by lia. exact Ht2. }
    rewrite Hex. unfold target, range_spec. fold d.
    destruct m; simpl; split.
    + tauto.
    + intros H. split; [exact H|discriminate].
    + tauto.
    + intros H. split; [exact H|discriminate].
    + intros [Ha Hb']. destruct (Z.eq_dec d 0) as [Hd0|Hd0].
      * replace bits with (capacity b bits) by lia. exact Ha.
      * auto.
    + intros H. split; [|auto]. eapply Z.lt_le_trans; [exact H|]. apply pow2_mono; lia.
Qed.

(** The honest decomposition satisfies every check on a value that fits. *)
Lemma range_exec_true b v bits m :
  1 <= b -> 1 <= bits -> 0 <= v < 2 ^ bits ->
  2 ^ capacity b bits <= modulus -> 2 ^ (2 * b) <= modulus ->
  range_exec b v bits m = true.
Proof.
  intros Hb Hn Hv Hc H2b.
  pose proof (capacity_bounds b bits Hb Hn) as [Hl [Hcap Hcb]].
  assert (Hbm : 2 ^ b <= modulus).
  { apply Z.le_trans with (2 ^ (2 * b)); [apply pow2_mono; lia|exact H2b]. }
  assert (Hbits : 2 ^ bits <= 2 ^ capacity b bits) by (apply pow2_mono; lia).
  unfold range_exec, commit_with, commit_items. rewrite execG_bind.
  unfold commit_item. cbn [ck_v ck_bits ck_mode].
  fold (capacity b bits).
  set (d := capacity b bits - bits) in *.
  assert (Hd : 0 <= d < b) by lia.
  assert (Hpd : 0 < 2 ^ d) by (apply Z.pow_pos_nonneg; lia).
  assert (Hsc : 0 <= v * 2 ^ d < 2 ^ capacity b bits).
  { replace (capacity b bits) with (bits + d) by lia. rewrite Z.pow_add_r by lia. nia. }
  assert (Hfs : fmul v (emb (2 ^ d)) = v * 2 ^ d) by (apply fmul_small; lia).
  destruct (Z.eqb_spec (decompSize bits b) 1) as [H1|H1].
  - assert (Hcb1 : capacity b bits = b) by (unfold capacity; rewrite H1; lia).
    rewrite Hcb1 in *. rewrite execG_bind. cbn [execG bind]. rewrite app_nil_r.
    assert (Hall : forallb (in_range_table b)
       ((if mode_eqb m TightForSmallAbs then [fmul v (emb (2 ^ d))] else [v]) ++
        (if mode_eqb m TightForUnknownRange && negb (d =? 0)
         then [fmul v (emb (2 ^ d))] else [])) = true).
    { apply forallb_table. rewrite Hfs. apply Forall_app. split.
      - destruct m; simpl; repeat constructor; lia.
      - destruct (mode_eqb m TightForUnknownRange && negb (d =? 0)); repeat constructor; lia. }
    unfold assert. rewrite Hall. reflexivity.
  - rewrite execG_bind.
    set (scale := if mode_eqb m TightForSmallAbs then 2 ^ d else 1).
    set (hs := DecomposeHint bits b v scale).
    rewrite execG_bind, execG_hints.
    assert (Hhr : Forall (fun w => 0 <= w < 2 ^ b) hs)
      by (apply digits_loop_range; lia).
    assert (Hme : map emb hs = hs).
    { transitivity (map (fun z => z) hs); [|apply map_id].
      apply map_ext_in. intros a Ha. apply emb_small.
      rewrite Forall_forall in Hhr. specialize (Hhr a Ha). lia. }
    rewrite Hme.
    assert (Hlen : length hs = Z.to_nat (decompSize bits b)) by apply digits_loop_length.
    assert (Hcz : compose b hs = v * scale).
    { rewrite compose_zc; [|lia|].
      2:{ eapply Forall_impl; [|exact Hhr]. simpl. intros; lia. }
      unfold hs, DecomposeHint. rewrite digits_loop_zc by lia. rewrite Z2Nat.id by lia.
      replace (b * decompSize bits b) with (capacity b bits) by (unfold capacity; lia).
      assert (0 <= v * scale < 2 ^ capacity b bits) by (unfold scale; destruct m; simpl; lia).
      rewrite Z.mod_small by lia. apply emb_small. lia. }
    rewrite execG_bind, Hcz.
    assert (HA : execG no_checkb
      (if mode_eqb m TightForSmallAbs
       then assert_eq (fmul v (emb scale)) (v * scale)
       else assert_eq v (v * scale)) = Some tt).
    { unfold scale. destruct m; simpl.
      - rewrite Z.mul_1_r, Z.eqb_refl. reflexivity.
      - rewrite Hfs, Z.eqb_refl. reflexivity.
      - rewrite Z.mul_1_r, Z.eqb_refl. reflexivity. }
    rewrite HA. cbn [execG bind]. rewrite app_nil_r.
    assert (Hall : forallb (in_range_table b)
       (hs ++ (if mode_eqb m TightForUnknownRange && negb (d =? 0)
         then [fmul (last hs 0) (emb (2 ^ d))] else [])) = true).
    { apply forallb_table. apply Forall_app. split; [exact Hhr|].
      destruct (mode_eqb m TightForUnknownRange && negb (d =? 0)) eqn:E; [|constructor].
      assert (Hm : m = TightForUnknownRange) by (destruct m; simpl in E; congruence).
      assert (Hne : hs <> []).
      { intros H0. rewrite H0 in Hlen. simpl in Hlen. lia. }
      constructor; [|constructor].
      apply scaled_last; try assumption.
      * rewrite Forall_forall in Hhr. apply Hhr.
        destruct (exists_last Hne) as [l' [a Ha]]. rewrite Ha, last_last.
        apply in_or_app. right. left. reflexivity.
      * rewrite (zc_last b hs d ltac:(lia) Hne Hhr).
        rewrite Hlen, Z2Nat.id by lia.
        replace (b * decompSize bits b - d) with bits by (unfold d, capacity; lia).
        unfold hs, DecomposeHint. rewrite digits_loop_zc by lia. rewrite Z2Nat.id by lia.
        replace (b * decompSize bits b) with (capacity b bits) by (unfold capacity; lia).
        unfold scale. subst m. simpl. rewrite Z.mul_1_r, Z.mod_small by lia. lia. }
    unfold assert. rewrite Hall. reflexivity.
Qed.

End Range.
