(** Facts about Text.v, with the specifications used by the properties. *)
From Coq Require Import ZArith List Bool Ascii String Lia.
From Verif Require Import Text.
Import ListNotations.
Local Open Scope Z_scope.

(** ** Specification of numerals *)

Definition len (s : string) : Z := Z.of_nat (length s).

(** [c] is the digit [d] in one of the usual alphabets. *)
Definition hexd (c : ascii) (d : Z) : Prop :=
  0 <= d /\ (String.get (Z.to_nat d) "0123456789abcdef" = Some c \/
             String.get (Z.to_nat d) "0123456789ABCDEF" = Some c).
Definition decd (c : ascii) (d : Z) : Prop :=
  0 <= d /\ String.get (Z.to_nat d) "0123456789" = Some c.

(** Positional value. *)
Inductive numeral (dig : ascii -> Z -> Prop) (base : Z) : string -> Z -> Prop :=
| num_nil : numeral dig base "" 0
| num_cons c d s v : dig c d -> numeral dig base s v ->
    numeral dig base (String c s) (d * base ^ len s + v).

Definition hex_numeral := numeral hexd 16.
Definition dec_numeral := numeral decd 10.

Definition digit_of (base : Z) (c : ascii) (d : Z) : Prop :=
  digit_value c = Some d /\ d < base.

Lemma len_cons c s : len (String c s) = len s + 1.
Proof. unfold len. cbn [length]. lia. Qed.
Lemma len_nonneg s : 0 <= len s.
Proof. unfold len. lia. Qed.

Lemma digit_value_range c d : digit_value c = Some d -> 0 <= d < 36.
Proof.
  unfold digit_value, between. intros H.
  destruct (Z.leb_spec 48 (code c)), (Z.leb_spec (code c) 57), (Z.leb_spec 97 (code c)),
    (Z.leb_spec (code c) 122), (Z.leb_spec 65 (code c)), (Z.leb_spec (code c) 90);
    cbn in H; inversion H; lia.
Qed.

Definition small (n : Z) : list Z := map Z.of_nat (seq 0 (Z.to_nat n)).
Lemma small_in n d : 0 <= d < n -> In d (small n).
Proof.
  intros H. unfold small. apply in_map_iff. exists (Z.to_nat d). split; [lia|].
  apply in_seq. lia.
Qed.

Lemma get_none n s : (String.length s <= n)%nat -> String.get n s = None.
Proof.
  revert n. induction s as [|a s IH]; intros [|n] Hn; cbn in *; try reflexivity; try lia.
  apply IH. lia.
Qed.

Lemma hexd_iff c d : hexd c d <-> digit_of 16 c d.
Proof.
  unfold hexd, digit_of. split.
  - intros [H0 H]. assert (Hd : d < 16).
    { destruct (Z_lt_le_dec d 16) as [|Hge]; [assumption|exfalso].
      rewrite !get_none in H; [destruct H; discriminate|cbn [length]; lia|cbn [length]; lia]. }
    split; [|exact Hd].
    assert (Hi : In d (small 16)) by (apply small_in; lia).
    change (small 16) with [0;1;2;3;4;5;6;7;8;9;10;11;12;13;14;15] in Hi.
    cbn [In] in Hi. repeat destruct Hi as [<-|Hi]; try contradiction;
      destruct H as [H|H]; vm_compute in H; inversion H; reflexivity.
  - intros [H Hd]. pose proof (digit_value_range c d H) as Hr. split; [lia|].
    destruct c as [[] [] [] [] [] [] [] []]; vm_compute in H; inversion H; subst d;
      first [lia|left; reflexivity|right; reflexivity].
Qed.

Lemma decd_iff c d : decd c d <-> digit_of 10 c d.
Proof.
  unfold decd, digit_of. split.
  - intros [H0 H]. assert (Hd : d < 10).
    { destruct (Z_lt_le_dec d 10) as [|Hge]; [assumption|exfalso].
      rewrite get_none in H; [discriminate|cbn [length]; lia]. }
    split; [|exact Hd].
    assert (Hi : In d (small 10)) by (apply small_in; lia).
    change (small 10) with [0;1;2;3;4;5;6;7;8;9] in Hi.
    cbn [In] in Hi. repeat destruct Hi as [<-|Hi]; try contradiction;
      vm_compute in H; inversion H; reflexivity.
  - intros [H Hd]. pose proof (digit_value_range c d H) as Hr. split; [lia|].
    destruct c as [[] [] [] [] [] [] [] []]; vm_compute in H; inversion H; subst d;
      first [lia|reflexivity].
Qed.

Lemma numeral_ext dig dig' base s v : (forall c d, dig c d <-> dig' c d) ->
  numeral dig base s v -> numeral dig' base s v.
Proof.
  intros He H. induction H; constructor; [apply He; assumption|assumption].
Qed.
Lemma hex_numeral_iff s v : hex_numeral s v <-> numeral (digit_of 16) 16 s v.
Proof. split; apply numeral_ext; intros; [|symmetry]; apply hexd_iff. Qed.
Lemma dec_numeral_iff s v : dec_numeral s v <-> numeral (digit_of 10) 10 s v.
Proof. split; apply numeral_ext; intros; [|symmetry]; apply decd_iff. Qed.

Section Base.
Variable base : Z.
Hypothesis Hbase : 2 <= base <= 16.
Notation num := (numeral (digit_of base) base).

Lemma num_range s v : num s v -> 0 <= v < base ^ len s.
Proof.
  intros H. induction H as [|c d s v [Hd Hb] Hn IH]; [cbn; lia|].
  apply digit_value_range in Hd. rewrite len_cons, Z.pow_add_r, Z.pow_1_r by (pose proof (len_nonneg s); lia).
  assert (0 < base ^ len s) by (apply Z.pow_pos_nonneg; [lia|apply len_nonneg]). nia.
Qed.

Lemma num_inv c s v : num (String c s) v ->
  exists d w, digit_value c = Some d /\ d < base /\ num s w /\ v = d * base ^ len s + w.
Proof.
  intros H. inversion H as [|? d ? w [Hd Hb] Hw]; subst. exists d, w.
  split; [exact Hd|]. split; [exact Hb|]. split; [exact Hw|reflexivity].
Qed.

Lemma num_fun s v w : num s v -> num s w -> v = w.
Proof.
  intros H. revert w. induction H as [|c d s v [Hd Hb] Hn IH]; intros w Hw.
  - inversion Hw. reflexivity.
  - apply num_inv in Hw. destruct Hw as (d' & w' & Hd' & _ & Hw & ->).
    rewrite Hd in Hd'. inversion Hd'. subst d'. rewrite (IH w'); auto.
Qed.

Lemma over n d P w B : 1 <= P -> 0 <= w -> 0 <= n * base + d -> B <= n * base + d ->
  n * (P * base) + (d * P + w) < B -> False.
Proof.
  intros HP Hw Hn Hb H.
  assert ((n * base + d) * 1 <= (n * base + d) * P) by (apply Z.mul_le_mono_nonneg_l; lia).
  replace (n * (P * base) + (d * P + w)) with ((n * base + d) * P + w) in H by ring. lia.
Qed.

Lemma parse_loop_spec bits s : 0 <= bits <= 64 -> forall n r, 0 <= n < 2 ^ bits ->
  (parse_loop base bits n s = inr r <->
   exists v, num s v /\ r = n * base ^ len s + v /\ r < 2 ^ bits).
Proof.
  intros Hbits. assert (Hb64 : 2 ^ bits <= 2 ^ 64) by (apply Z.pow_le_mono_r; lia).
  induction s as [|c s IH]; intros n r Hn.
  - cbn [parse_loop]. split.
    + intros H. inversion H. subst r. exists 0. split; [constructor|]. cbn. lia.
    + intros (v & Hv & -> & Hlt). inversion Hv. subst v. f_equal. cbn. lia.
  - cbn [parse_loop]. pose proof (len_nonneg s) as Hls.
    assert (Hpos : 0 < base ^ len s) by (apply Z.pow_pos_nonneg; lia).
    rewrite len_cons, Z.pow_add_r, Z.pow_1_r by lia.
    destruct (digit_value c) as [d|] eqn:Hd.
    2:{ split; [discriminate|]. intros (v & Hv & _). apply num_inv in Hv.
        destruct Hv as (d & w & H1 & _). congruence. }
    pose proof (digit_value_range c d Hd) as Hdr.
    destruct (Z.leb_spec base d) as [Hge|Hlt].
    { split; [discriminate|]. intros (v & Hv & _). apply num_inv in Hv.
      destruct Hv as (d' & w & H1 & H2 & _). rewrite Hd in H1. inversion H1. lia. }
    pose proof (Z.div_mod (2 ^ 64 - 1) base ltac:(lia)) as Hdm.
    pose proof (Z.mod_pos_bound (2 ^ 64 - 1) base ltac:(lia)) as Hmb.
    set (q := (2 ^ 64 - 1) / base) in *.
    assert (Hdec : forall v, num (String c s) v ->
       exists w, num s w /\ v = d * base ^ len s + w).
    { intros v Hv. apply num_inv in Hv. destruct Hv as (d' & w & H1 & _ & Hw & ->).
      rewrite Hd in H1. inversion H1. subst d'. exists w. split; [exact Hw|reflexivity]. }
    destruct (Z.leb_spec (q + 1) n) as [Hbig|Hsm].
    { split; [discriminate|]. intros (v & Hv & -> & Hr). exfalso.
      apply num_range in Hv.
      assert (H64 : 2 ^ 64 <= n * base) by nia.
      assert (n * base * 1 <= n * base * base ^ len s) by (apply Z.mul_le_mono_nonneg_l; lia).
      replace (n * (base ^ len s * base)) with (n * base * base ^ len s) in Hr by ring. lia. }
    assert (Hn0 : n * base <= 2 ^ 64 - 1) by nia.
    destruct (Z_lt_le_dec (n * base + d) (2 ^ 64)) as [Hnw|Hw].
    + rewrite (Z.mod_small (n * base + d)) by lia.
      destruct (Z.ltb_spec (n * base + d) (n * base)) as [|_]; [lia|]. cbn [orb].
      destruct (Z.ltb_spec (2 ^ bits - 1) (n * base + d)) as [Hov|Hok].
      { split; [discriminate|]. intros (v & Hv & -> & Hr). exfalso.
        destruct (Hdec v Hv) as (w & Hw & ->). apply num_range in Hw.
        apply (over n d (base ^ len s) w (2 ^ bits)); lia. }
      rewrite IH by lia. split.
      * intros (v & Hv & -> & Hr). exists (d * base ^ len s + v).
        split; [constructor; [split; assumption|assumption]|]. split; [ring|exact Hr].
      * intros (v & Hv & -> & Hr). destruct (Hdec v Hv) as (w & Hw & ->).
        exists w. split; [exact Hw|]. split; [ring|exact Hr].
    + assert (Hmod : (n * base + d) mod 2 ^ 64 = n * base + d - 2 ^ 64).
      { rewrite <- (Z.mod_unique_pos (n * base + d) (2 ^ 64) 1 (n * base + d - 2 ^ 64)); lia. }
      rewrite Hmod. destruct (Z.ltb_spec (n * base + d - 2 ^ 64) (n * base)) as [_|]; [|lia].
      cbn [orb]. split; [discriminate|]. intros (v & Hv & -> & Hr). exfalso.
      destruct (Hdec v Hv) as (w & Hw' & ->). apply num_range in Hw'.
      apply (over n d (base ^ len s) w (2 ^ bits)); lia.
Qed.

Lemma ParseUint_spec bits s v : 0 < bits <= 64 ->
  (ParseUint s base bits = inr v <-> s <> "" /\ num s v /\ v < 2 ^ bits)%string.
Proof.
  intros Hbits. assert (0 < 2 ^ bits) by (apply Z.pow_pos_nonneg; lia).
  unfold ParseUint. destruct s as [|c s].
  - split; [discriminate|]. intros [Hc _]. contradiction.
  - rewrite parse_loop_spec by lia. split.
    + intros (w & Hw & -> & Hr). split; [discriminate|]. cbn [Z.mul]. rewrite Z.mul_0_l, Z.add_0_l in *.
      split; assumption.
    + intros (_ & Hw & Hr). exists v. split; [exact Hw|]. split; [ring|exact Hr].
Qed.

(** Range errors are reported for numerals, syntax errors for the rest. *)
Lemma parse_loop_err bits s : 0 <= bits <= 64 -> forall n v, 0 <= n < 2 ^ bits -> num s v ->
  2 ^ bits <= n * base ^ len s + v -> parse_loop base bits n s = inl ErrRange.
Proof.
  intros Hbits. induction s as [|c s IH]; intros n v Hn Hv Hr.
  { inversion Hv; subst. cbn in Hr. lia. }
  inversion Hv as [|? d ? w [Hd Hlt] Hw]; subst. cbn [parse_loop]. rewrite Hd.
  pose proof (digit_value_range c d Hd) as Hdr.
  pose proof (len_nonneg s) as Hls.
  rewrite len_cons, Z.pow_add_r, Z.pow_1_r in Hr by lia.
  destruct (Z.leb_spec base d) as [|_]; [lia|].
  destruct (Z.leb_spec ((2 ^ 64 - 1) / base + 1) n) as [|Hsm]; [reflexivity|].
  pose proof (Z.div_mod (2 ^ 64 - 1) base ltac:(lia)) as Hdm.
  pose proof (Z.mod_pos_bound (2 ^ 64 - 1) base ltac:(lia)) as Hmb.
  set (q := (2 ^ 64 - 1) / base) in *.
  assert (Hn0 : n * base <= 2 ^ 64 - 1) by nia.
  destruct (orb _ _) eqn:Ho; [reflexivity|].
  apply orb_false_iff in Ho. destruct Ho as [Ho1 Ho2].
  apply Z.ltb_ge in Ho1, Ho2.
  assert (Hm : (n * base + d) mod 2 ^ 64 = n * base + d).
  { destruct (Z_lt_le_dec (n * base + d) (2 ^ 64)) as [Hnw|Hw'].
    - apply Z.mod_small. lia.
    - exfalso. rewrite <- (Z.mod_unique_pos (n * base + d) (2 ^ 64) 1 (n * base + d - 2 ^ 64)) in Ho1; lia. }
  rewrite Hm in *. apply (IH _ w); [lia|exact Hw|].
  replace ((n * base + d) * base ^ len s) with (n * (base ^ len s * base) + d * base ^ len s) by ring.
  lia.
Qed.

Lemma ParseUint_range bits s v : 0 < bits <= 64 -> num s v -> 2 ^ bits <= v ->
  ParseUint s base bits = inl ErrRange.
Proof.
  intros Hb Hv Hr. assert (0 < 2 ^ bits) by (apply Z.pow_pos_nonneg; lia).
  unfold ParseUint. destruct s as [|c s]; [inversion Hv; lia|].
  apply (parse_loop_err bits _ ltac:(lia) 0 v); [lia|exact Hv|lia].
Qed.

Lemma digit_ok d : 0 <= d < base -> digit_of base (digit d) d.
Proof.
  intros H. split; [|lia]. assert (Hi : In d (small 16)) by (apply small_in; lia).
  change (small 16) with [0;1;2;3;4;5;6;7;8;9;10;11;12;13;14;15] in Hi.
  cbn [In] in Hi. repeat destruct Hi as [<-|Hi]; try contradiction; reflexivity.
Qed.

Lemma format_num fuel : forall v acc a, 0 <= v < base ^ Z.of_nat fuel -> num acc a ->
  fuel <> O -> num (format base fuel v acc) (v * base ^ len acc + a).
Proof.
  induction fuel as [|f IH]; intros v acc a Hv Ha Hf; [contradiction|].
  cbn [format]. destruct (Z.ltb_spec v base) as [Hlt|Hge].
  - constructor; [apply digit_ok; lia|exact Ha].
  - rewrite Nat2Z.inj_succ, Z.pow_succ_r in Hv by lia.
    pose proof (Z.div_mod v base ltac:(lia)) as Hdm.
    pose proof (Z.mod_pos_bound v base ltac:(lia)) as Hmb.
    set (q := v / base) in *. set (m := v mod base) in *.
    replace (v * base ^ len acc + a) with
      (q * base ^ len (String (digit m) acc) + (m * base ^ len acc + a)).
    2:{ rewrite len_cons, Z.pow_add_r, Z.pow_1_r by (pose proof (len_nonneg acc); lia).
        rewrite Hdm. ring. }
    apply IH.
    + split; [nia|]. nia.
    + constructor; [apply digit_ok; lia|exact Ha].
    + intros ->. cbn in Hv. nia.
Qed.

(** The first digit is not zero, except for the numeral of zero. *)
Lemma format_head fuel : forall v acc, 0 < v < base ^ Z.of_nat fuel ->
  exists d s, 0 < d < base /\ format base fuel v acc = String (digit d) s.
Proof.
  induction fuel as [|f IH]; intros v acc Hv; [cbn in Hv; lia|].
  cbn [format]. destruct (Z.ltb_spec v base) as [Hlt|Hge].
  - exists v, acc. split; [lia|reflexivity].
  - apply IH. rewrite Nat2Z.inj_succ, Z.pow_succ_r in Hv by lia. split.
    + apply Z.div_str_pos. lia.
    + apply Z.div_lt_upper_bound; lia.
Qed.

Lemma format_shortest v s : 0 <= v < base ^ 64 -> s <> ""%string -> num s v ->
  len (format base 64 v "") <= len s.
Proof.
  intros Hv Hs Hn. destruct (Z.eq_dec v 0) as [->|Hnz].
  - replace (format base 64 0 "") with (String (digit 0) "").
    2:{ cbn [format]. destruct (Z.ltb_spec 0 base) as [|]; [reflexivity|lia]. }
    destruct s as [|c s]; [contradiction|]. rewrite !len_cons. pose proof (len_nonneg s).
    change (len "") with 0. lia.
  - destruct (format_head 64 v "" ltac:(cbn [Z.of_nat]; lia)) as (d & t & Hd & He).
    assert (Hf : num (format base 64 v "") v).
    { replace v with (v * base ^ len "" + 0) at 2 by (change (len "") with 0; rewrite Z.pow_0_r; ring).
      apply format_num; [exact Hv|constructor|discriminate]. }
    rewrite He in *. inversion Hf as [|? d' ? w [Hd1 Hd2] Hw]; subst.
    destruct (digit_ok d ltac:(lia)) as [Hd3 _]. rewrite Hd3 in Hd1. inversion Hd1. subst d'.
    apply num_range in Hn. apply num_range in Hw. rewrite len_cons.
    destruct (Z_lt_le_dec (len s) (len t + 1)) as [Hlt|]; [exfalso|assumption].
    assert (base ^ len s <= base ^ len t) by (apply Z.pow_le_mono_r; lia).
    pose proof (len_nonneg t).
    assert (0 < base ^ len t) by (apply Z.pow_pos_nonneg; lia). nia.
Qed.
End Base.

(** ** Hexadecimal floats *)

Theorem hex_parse bits s v : 0 < bits <= 64 ->
  (ParseUint s 16 bits = inr v <-> s <> ""%string /\ hex_numeral s v /\ v < 2 ^ bits).
Proof. intros Hb. rewrite hex_numeral_iff. apply ParseUint_spec; lia. Qed.

Theorem hex_parse_range bits s v : 0 < bits <= 64 -> hex_numeral s v -> 2 ^ bits <= v ->
  ParseUint s 16 bits = inl ErrRange.
Proof. intros Hb Hn. apply hex_numeral_iff in Hn. apply ParseUint_range; [lia|exact Hb|exact Hn]. Qed.

Lemma hex_format v : 0 <= v < 2 ^ 64 -> hex_numeral (FormatUint16 v) v.
Proof.
  intros Hv. apply hex_numeral_iff. unfold FormatUint16.
  replace v with (v * 16 ^ len "" + 0) at 2 by (change (len "") with 0; rewrite Z.pow_0_r; ring).
  apply format_num; [lia| |constructor|discriminate].
  assert (2 ^ 64 < 16 ^ Z.of_nat 64) by reflexivity. lia.
Qed.

Lemma format_nonempty v : 0 <= v < 2 ^ 64 -> FormatUint16 v <> ""%string.
Proof.
  intros Hv H. pose proof (hex_format v Hv) as Hn. rewrite H in Hn. inversion Hn. subst v.
  discriminate.
Qed.

Theorem hex_roundtrip v : 0 <= v < 2 ^ 64 -> HexToFloat (floatToHex v) = inr v.
Proof.
  intros Hv. apply hex_parse; [lia|]. split; [apply format_nonempty, Hv|].
  split; [apply hex_format, Hv|lia].
Qed.

Theorem hex_shortest v s : 0 <= v < 2 ^ 64 -> HexToFloat s = inr v ->
  len (floatToHex v) <= len s.
Proof.
  intros Hv H. apply hex_parse in H; [|lia]. destruct H as (Hs & Hn & _).
  apply hex_numeral_iff in Hn. apply format_shortest; [lia| |exact Hs|exact Hn].
  assert (2 ^ 64 < 16 ^ 64) by reflexivity. lia.
Qed.

Lemma dec_format v : 0 <= v < 10 ^ 64 -> dec_numeral (Itoa v) v.
Proof.
  intros Hv. apply dec_numeral_iff. unfold Itoa.
  replace v with (v * 10 ^ len "" + 0) at 2 by (change (len "") with 0; rewrite Z.pow_0_r; ring).
  apply format_num; [lia|exact Hv|constructor|discriminate].
Qed.

(** ** Slices of bytes *)

Inductive hex_bytes : string -> list Z -> Prop :=
| hb_nil : hex_bytes "" []
| hb_cons a b x y s l : hexd a x -> hexd b y -> hex_bytes s l ->
    hex_bytes (String a (String b s)) (16 * x + y :: l).

Lemma hex_digit_iff c d : hex_digit c = Some d <-> hexd c d.
Proof.
  rewrite hexd_iff. unfold hex_digit, digit_of. destruct (digit_value c) as [x|].
  - destruct (Z.ltb_spec x 16); split; intros H'; try discriminate.
    + inversion H'. subst. split; [reflexivity|lia].
    + destruct H' as [H' _]. exact H'.
    + destruct H' as [H' H'']. inversion H'. lia.
  - split; [discriminate|]. intros [? _]. discriminate.
Qed.

(** The longest decodable prefix of whole bytes. *)
Theorem decode_spec s l : StrToIntSlice s true = l <->
  exists p t, s = (p ++ t)%string /\ hex_bytes p l /\
    forall a b u x y, t = String a (String b u) -> ~ (hexd a x /\ hexd b y).
Proof.
  unfold StrToIntSlice.
  assert (HA : forall n s, (String.length s <= n)%nat ->
    exists p t, s = (p ++ t)%string /\ hex_bytes p (fst (DecodeString s)) /\
    forall a b u x y, t = String a (String b u) -> ~ (hexd a x /\ hexd b y)).
  { clear. induction n as [|n IH]; intros s Hs.
    { destruct s; [|cbn in Hs; lia]. exists ""%string, ""%string. split; [reflexivity|].
      split; [constructor|discriminate]. }
    destruct s as [|a [|b s]].
    - exists ""%string, ""%string. split; [reflexivity|]. split; [constructor|discriminate].
    - exists ""%string, (String a ""). split; [reflexivity|]. split; [constructor|discriminate].
    - cbn [DecodeString]. destruct (hex_digit a) as [x|] eqn:Ha.
      2:{ exists ""%string, (String a (String b s)). split; [reflexivity|]. split; [constructor|].
          intros a' b' u x y He [Hx _]. inversion He. subst. apply hex_digit_iff in Hx. congruence. }
      destruct (hex_digit b) as [y|] eqn:Hb.
      2:{ exists ""%string, (String a (String b s)). split; [reflexivity|]. split; [constructor|].
          intros a' b' u x' y He [_ Hy]. inversion He. subst. apply hex_digit_iff in Hy. congruence. }
      destruct (IH s ltac:(cbn in Hs; lia)) as (p & t & -> & Hp & Ht).
      exists (String a (String b p)), t. split; [reflexivity|]. split; [|exact Ht].
      destruct (DecodeString (p ++ t)) as [l ok]. cbn [fst] in *.
      constructor; [apply hex_digit_iff, Ha|apply hex_digit_iff, Hb|exact Hp]. }
  split.
  - intros <-. apply (HA (String.length s)). lia.
  - intros (p & t & -> & Hp & Ht). induction Hp as [|a b x y s l Hx Hy Hp IH].
    + destruct t as [|a [|b t]]; try reflexivity. cbn [append DecodeString].
      destruct (hex_digit a) as [x|] eqn:Ha; [|reflexivity].
      destruct (hex_digit b) as [y|] eqn:Hb; [|reflexivity].
      exfalso. apply (Ht a b t x y eq_refl). split; apply hex_digit_iff; assumption.
    + cbn [append DecodeString]. apply hex_digit_iff in Hx, Hy. rewrite Hx, Hy.
      destruct (DecodeString (s ++ t)) as [l' ok]. cbn [fst] in *. rewrite IH. reflexivity.
Qed.

Lemma code_range c : 0 <= code c < 256.
Proof.
  unfold code. pose proof (N_ascii_bounded c). lia.
Qed.

Theorem slice_bytes s b : Forall (fun x => 0 <= x < 256) (StrToIntSlice s b).
Proof.
  destruct b.
  - destruct (proj1 (decode_spec s _) eq_refl) as (p & t & _ & Hp & _).
    induction Hp as [|a b x y s0 l Hx Hy Hp IH]; [constructor|]. constructor; [|exact IH].
    apply hexd_iff in Hx, Hy. destruct Hx as [Hx Hx'], Hy as [Hy Hy'].
    apply digit_value_range in Hx, Hy. lia.
  - unfold StrToIntSlice. induction s as [|c s IH]; [constructor|].
    constructor; [apply code_range|exact IH].
Qed.
