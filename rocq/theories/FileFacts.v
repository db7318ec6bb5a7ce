(** The file of cells, and the closest vertex. *)
From Coq Require Import ZArith Reals Lra List Bool Ascii String Lia.
From Flocq Require Import Core BinarySingleNaN.
From Flocq Require Binary Bits.
From Verif Require Import Text TextFacts RegexFacts RoundFacts Spec.
Import ListNotations.
Local Open Scope Z_scope.

(** ** Reading the file back *)

Definition not_space (c : ascii) : bool := negb (is_field_space c).

Lemma fields_run w : forall cur s, all not_space w = true ->
  fields_go cur (w ++ s) = fields_go (cur ++ w) s.
Proof.
  induction w as [|c w IH]; intros cur s H; [rewrite app_nil; reflexivity|].
  cbn [all] in H. apply andb_prop in H. destruct H as [Hc H]. apply negb_true_iff in Hc.
  cbn [append fields_go]. rewrite Hc, IH by exact H. rewrite <- app_assoc. reflexivity.
Qed.

Lemma fields_field w c s : run_of not_space w = true -> is_field_space c = true ->
  fields_go "" (w ++ String c s) = w :: fields_go "" s.
Proof.
  intros Hw Hc. destruct w as [|d w]; [discriminate|]. rewrite fields_run by exact Hw.
  cbn [append fields_go]. rewrite Hc. reflexivity.
Qed.

Lemma fields_skip sp s : all is_field_space sp = true -> fields_go "" (sp ++ s) = fields_go "" s.
Proof.
  induction sp as [|c sp IH]; intros H; [reflexivity|]. cbn [all] in H. apply andb_prop in H. destruct H as [Hc H].
  cbn [append fields_go]. rewrite Hc. exact (IH H).
Qed.

(** A field, the white space after it, and the rest. *)
Lemma fields_next w sp s : run_of not_space w = true -> run_of is_field_space sp = true ->
  fields_go "" (w ++ sp ++ s) = w :: fields_go "" s.
Proof.
  intros Hw Hs. destruct sp as [|c sp]; [discriminate|]. cbn [run_of all] in Hs. apply andb_prop in Hs. destruct Hs as [Hc Hs].
  cbn [append]. rewrite (fields_field w c _ Hw Hc). f_equal. exact (fields_skip sp s Hs).
Qed.

Lemma fields_last w : run_of not_space w = true -> fields_go "" w = [w].
Proof.
  intros Hw. destruct w as [|d w]; [discriminate|]. rewrite <- (app_nil (String d w)) at 1. rewrite fields_run by exact Hw. reflexivity.
Qed.

(** Text as words, each with the white space after it. *)
Fixpoint spaced (l : list (string * string)) : string :=
  match l with [] => "" | (w, sp) :: l' => w ++ sp ++ spaced l' end.

Lemma fields_text pre l w : all is_field_space pre = true ->
  Forall (fun ws => run_of not_space (fst ws) = true /\ run_of is_field_space (snd ws) = true) l ->
  Fields (pre ++ spaced l) = map fst l /\
  (run_of not_space w = true -> Fields (pre ++ spaced l ++ w) = map fst l ++ [w]).
Proof.
  intros Hp H. unfold Fields. rewrite !fields_skip by exact Hp. induction H as [|[v sp] l [Hv Hs] H [IH1 IH2]]; cbn [spaced map fst].
  - split; [reflexivity|]. intros Hw. exact (fields_last w Hw).
  - cbn [fst snd] in *. split; [rewrite fields_next by assumption; f_equal; exact IH1|]. intros Hw.
    rewrite <- app_assoc, <- app_assoc, fields_next by assumption. cbn [app]. f_equal. exact (IH2 Hw).
Qed.

Lemma hex_not_space c d : digit_of 16 c d -> not_space c = true.
Proof.
  intros [H _]. destruct c as [[] [] [] [] [] [] [] []]; vm_compute in H |- *;
    first [discriminate|reflexivity].
Qed.

Lemma hex_run v : 0 <= v < 2 ^ 64 -> run_of not_space (floatToHex v) = true.
Proof.
  intros Hv. pose proof (hex_format v Hv) as Hn. pose proof (format_nonempty v Hv) as Hne.
  unfold floatToHex in *. destruct (FormatUint16 v) as [|c s]; [contradiction|].
  apply hex_numeral_iff in Hn. unfold run_of. clear Hne Hv. remember (String c s) as w. clear Heqw.
  induction Hn as [|x d w u Hd Hn IH]; [reflexivity|]. cbn [all].
  rewrite (hex_not_space x d Hd). exact IH.
Qed.

Lemma hex_cells_cons t32 b cell cells :
  hex_cells t32 b (cell :: cells) = (cell_line t32 b cell ++ hex_cells t32 b cells)%string.
Proof.
  unfold hex_cells. cbn [map]. destruct (map (cell_line t32 b) cells) as [|x l] eqn:E.
  - cbn. rewrite app_nil. reflexivity.
  - reflexivity.
Qed.

Definition written (t32 : Z -> Z) (useFloat32 : bool) (v : Z) : Z := if useFloat32 then t32 v else v.

Theorem file_fields t32 b cells :
  Forall (fun c => 0 <= written t32 b (fst c) < 2 ^ 64 /\ 0 <= written t32 b (snd c) < 2 ^ 64) cells ->
  map HexToFloat (Fields (hex_cells t32 b cells)) =
  flat_map (fun c => [inr (written t32 b (fst c)); inr (written t32 b (snd c))]) cells.
Proof.
  induction cells as [|[x y] cells IH]; intros H; [reflexivity|].
  inversion H as [|? ? [Hx Hy] Hc]; subst. cbn [fst snd] in Hx, Hy.
  rewrite hex_cells_cons.
  assert (Hl : cell_line t32 b (x, y) =
    (floatToHex (written t32 b x) ++ String " " (floatToHex (written t32 b y) ++ newline))%string).
  { unfold cell_line, written. destruct b; reflexivity. }
  rewrite Hl. unfold Fields. rewrite <- app_assoc.
  change ((String " " (floatToHex (written t32 b y) ++ newline) ++ hex_cells t32 b cells)%string)
    with (String " " ((floatToHex (written t32 b y) ++ newline) ++ hex_cells t32 b cells)).
  rewrite fields_field by (apply hex_run, Hx || reflexivity).
  rewrite <- app_assoc.
  change (newline ++ hex_cells t32 b cells)%string with (String (byte 10) (hex_cells t32 b cells)).
  rewrite fields_field by (apply hex_run, Hy || reflexivity).
  cbn [map flat_map fst snd List.app]. rewrite !hex_roundtrip by assumption.
  rewrite <- (IH Hc). reflexivity.
Qed.

(** ** Single precision *)

Lemma double_small q : 0 < q < 2 ^ 32 ->
  B2R (of_bits 11 52 q) = (IZR q * bpow radix2 (-1074))%R.
Proof.
  intros Hq. unfold of_bits.
  rewrite Binary.B2R_B2BSN. unfold Bits.binary_float_of_bits. rewrite Binary.B2R_FF2B.
  unfold Bits.binary_float_of_bits_aux, Bits.split_bits.
  assert (Hs : (2 ^ 52 * 2 ^ 11 <=? q) = false) by (apply Z.leb_gt; lia).
  rewrite Hs, (Z.mod_small q (2 ^ 52)), (Z.div_small q (2 ^ 52)) by lia.
  change (0 mod 2 ^ 11) with 0. cbn [Zeq_bool].
  destruct q as [|p|p]; try lia.
  change (Zeq_bool 0 0) with true. cbv iota. unfold Binary.FF2R, F2R. cbn [Fnum Fexp cond_Zopp].
  reflexivity.
Qed.

Theorem float32_too_big q (g : fmt 8 23) : 0 < q < 2 ^ 64 ->
  B2R (of_bits 11 52 q) = B2R g -> B2R g <> 0%R -> HexToFloat32 (floatToHex q) = inl ErrRange.
Proof.
  intros Hq Hv Hn. apply (hex_parse_range 32 _ q ltac:(lia)); [apply hex_format; lia|].
  destruct (Z_lt_le_dec q (2 ^ 32)) as [Hlt|]; [exfalso|assumption].
  rewrite double_small in Hv by lia.
  assert (Hg : (bpow radix2 (-149) <= Rabs (B2R g))%R).
  { apply (abs_B2R_ge_emin (prec 23) (Spec.emax 8) g).
    destruct g as [s|s| |s m e He]; cbn [B2R] in Hn; try (exfalso; apply Hn; reflexivity). reflexivity. }
  rewrite <- Hv in Hg. rewrite Rabs_pos_eq in Hg.
  2:{ apply Rmult_le_pos; [apply IZR_le; lia|apply bpow_ge_0]. }
  assert (Hu : (IZR q * bpow radix2 (-1074) < bpow radix2 32 * bpow radix2 (-1074))%R).
  { apply Rmult_lt_compat_r; [apply bpow_gt_0|]. change (bpow radix2 32) with (IZR (2 ^ 32)).
    apply IZR_lt. lia. }
  rewrite <- bpow_plus in Hu.
  assert (bpow radix2 (32 + -1074) <= bpow radix2 (-149))%R by (apply bpow_le; lia). lra.
Qed.

(** ** The closest vertex *)

Section Closest.
Context {D : Type} (lt : D -> D -> bool) (distance : D * D -> D).
Hypothesis Htrans : forall x y z, lt x y = true -> lt y z = true -> lt x z = true.

Definition is_min (r d0 : D) (boundary : list (D * D)) : Prop :=
  (r = d0 \/ (lt r d0 = true /\ exists p, In p boundary /\ r = distance p)) /\
  forall p, In p boundary -> lt (distance p) r = false.

Lemma pass_min boundary : forall d, (forall x, lt x x = false) ->
  is_min (closest_pass lt distance d boundary) d boundary.
Proof.
  unfold closest_pass. induction boundary as [|p l IH]; intros d Hirr; cbn [fold_left].
  - split; [left; reflexivity|]. intros q [].
  - destruct (lt (distance p) d) eqn:Hp.
    + destruct (IH (distance p) Hirr) as [[H1|(H1 & q & Hq & H2)] H3].
      * split.
        -- right. rewrite H1. split; [exact Hp|]. exists p. split; [left; reflexivity|reflexivity].
        -- intros q [<-|Hq]; [|apply H3, Hq]. rewrite H1. apply Hirr.
      * split.
        -- right. split; [exact (Htrans _ _ _ H1 Hp)|]. exists q. split; [right; exact Hq|exact H2].
        -- intros q' [<-|Hq']; [|apply H3, Hq'].
           match goal with |- ?b = false => destruct b eqn:Hc; [|reflexivity] end.
           pose proof (Htrans _ _ _ Hc H1) as Hx. rewrite Hirr in Hx. discriminate.
    + destruct (IH d Hirr) as [[H1|(H1 & q & Hq & H2)] H3].
      * split; [left; exact H1|]. intros q [<-|Hq]; [|apply H3, Hq]. rewrite H1. exact Hp.
      * split.
        -- right. split; [exact H1|]. exists q. split; [right; exact Hq|exact H2].
        -- intros q' [<-|Hq']; [|apply H3, Hq'].
           match goal with |- ?b = false => destruct b eqn:Hc; [|reflexivity] end.
           rewrite (Htrans _ _ _ Hc H1) in Hp. discriminate.
Qed.

Lemma pass_stable boundary : forall d, (forall p, In p boundary -> lt (distance p) d = false) ->
  closest_pass lt distance d boundary = d.
Proof.
  unfold closest_pass. induction boundary as [|p l IH]; intros d H; [reflexivity|].
  cbn [fold_left]. rewrite (H p (or_introl eq_refl)). apply IH. intros q Hq. apply H. right. exact Hq.
Qed.

Theorem closest_min boundary n d0 : (forall x, lt x x = false) ->
  is_min (closest lt distance (S n) d0 boundary) d0 boundary.
Proof.
  intros Hirr. cbn [closest]. pose proof (pass_min boundary d0 Hirr) as H.
  set (d := closest_pass lt distance d0 boundary) in *.
  assert (Hs : forall n, closest lt distance n d boundary = d).
  { induction n0 as [|m IH]; [reflexivity|]. cbn [closest].
    rewrite pass_stable; [exact IH|]. apply H. }
  rewrite Hs. exact H.
Qed.
End Closest.

(** The comparison of doubles is transitive. *)
Lemma ieee_lt_trans (x y z : fmt 11 52) :
  ieee_lt 11 52 x y = true -> ieee_lt 11 52 y z = true -> ieee_lt 11 52 x z = true.
Proof.
  unfold ieee_lt.
  destruct (is_finite x) eqn:Fx, (is_finite y) eqn:Fy, (is_finite z) eqn:Fz.
  1:{ rewrite !Bltb_correct by assumption. intros H1 H2.
      destruct (Rlt_bool_spec (B2R x) (B2R y)); [|discriminate].
      destruct (Rlt_bool_spec (B2R y) (B2R z)); [|discriminate].
      apply Rlt_bool_true. apply Rlt_trans with (B2R y); assumption. }
  all: destruct x as [?|[]| |[] ? ? ?], y as [?|[]| |[] ? ? ?], z as [?|[]| |[] ? ? ?];
    try discriminate; try (intros; reflexivity); intros; discriminate.
Qed.
Lemma ieee_lt_irrefl (x : fmt 11 52) : ieee_lt 11 52 x x = false.
Proof.
  unfold ieee_lt. destruct (is_finite x) eqn:Fx.
  - rewrite Bltb_correct by assumption. apply Rlt_bool_false. apply Rle_refl.
  - destruct x as [?|[]| |[] ? ? ?]; try discriminate; reflexivity.
Qed.
