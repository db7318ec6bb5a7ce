(** What the parsers of Text.v return on the output of the H3 tools. *)
From Coq Require Import ZArith List Bool Ascii String Lia.
From Verif Require Import Text TextFacts RegexFacts.
Import ListNotations.
Local Open Scope Z_scope.

Lemma not_c0 c0 c : Ascii.eqb c0 c = false -> forall A l s (k : string -> option A),
  lit (String c0 l) (String c s) k = None.
Proof. intros H A l s k. cbn [lit]. rewrite H. reflexivity. Qed.

(** Text without the first byte of the pattern is skipped. *)
Lemma find_skip_lit c0 l r pre s : all (fun c => negb (Ascii.eqb c0 c)) pre = true ->
  find (Seq (Lit (String c0 l)) r) (pre ++ s) = find (Seq (Lit (String c0 l)) r) s.
Proof.
  intros H. induction pre as [|c pre IH]; [reflexivity|]. cbn [all] in H.
  apply andb_prop in H. destruct H as [Hc H]. apply negb_true_iff in Hc.
  cbn [append find]. unfold match_here. cbn [rmatch]. rewrite (not_c0 c0 c Hc). apply IH, H.
Qed.

Lemma find_cons r c s : find r (String c s) =
  match match_here r (String c s) with Some x => Some x | None => find r s end.
Proof. reflexivity. Qed.

Lemma find_here r s x : match_here r s = Some x -> find r s = Some x.
Proof. intros H. destruct s; cbn [find]; rewrite H; reflexivity. Qed.

(** ** Coordinates *)

Lemma digit_not c0 c : is_digit c0 = false -> is_digit c = true -> Ascii.eqb c0 c = false.
Proof. intros H0 H. apply Ascii.eqb_neq. intros ->. congruence. Qed.

Lemma ijk_here i j k post : run_of is_digit i = true -> run_of is_digit j = true ->
  run_of is_digit k = true -> stops is_digit post = true ->
  match_here pat_ijk ("I: " ++ i ++ ", J: " ++ j ++ ", K: " ++ k ++ post) = Some ([i; j; k], post).
Proof.
  intros Hi Hj Hk Hp. unfold match_here, pat_ijk. cbn [rmatch]. rewrite lit_app.
  rewrite plus_det; [|exact Hi|reflexivity|].
  2:{ intros c u Hc. apply not_c0, digit_not; [reflexivity|exact Hc]. }
  rewrite upto_app, lit_app.
  rewrite plus_det; [|exact Hj|reflexivity|].
  2:{ intros c u Hc. apply not_c0, digit_not; [reflexivity|exact Hc]. }
  rewrite upto_app, lit_app. cbn [List.app].
  apply plus_greedy; [exact Hk|exact Hp|]. rewrite upto_app. reflexivity.
Qed.

Definition no_I := all (fun c => negb (Ascii.eqb "I" c)).

Lemma find_ijk pre i j k post : no_I pre = true -> run_of is_digit i = true ->
  run_of is_digit j = true -> run_of is_digit k = true -> stops is_digit post = true ->
  find pat_ijk (pre ++ "I: " ++ i ++ ", J: " ++ j ++ ", K: " ++ k ++ post) = Some ([i; j; k], post).
Proof.
  intros Hpre Hi Hj Hk Hp. unfold pat_ijk. rewrite find_skip_lit by exact Hpre.
  apply find_here. apply ijk_here; assumption.
Qed.

Lemma dec_run s v : dec_numeral s v -> all is_digit s = true.
Proof.
  intros H. apply dec_numeral_iff in H. induction H as [|c d s v [Hd Hb] Hn IH]; [reflexivity|].
  cbn [all]. rewrite IH, andb_true_r.
  pose proof (digit_value_range c d Hd) as Hr.
  unfold digit_value, is_digit in *. destruct (between 48 57 c); [reflexivity|exfalso].
  unfold between in Hd.
  destruct (Z.leb_spec 97 (code c)), (Z.leb_spec (code c) 122), (Z.leb_spec 65 (code c)),
    (Z.leb_spec (code c) 90); cbn in Hd; inversion Hd; lia.
Qed.

Lemma itoa_run v : 0 <= v < 10 ^ 64 -> run_of is_digit (Itoa v) = true.
Proof.
  intros Hv. pose proof (dec_format v Hv) as Hn. pose proof (dec_run _ _ Hn) as Ha.
  unfold run_of. destruct (Itoa v) eqn:He; [|exact Ha].
  exfalso. revert He. unfold Itoa. generalize 63%nat. intros n.
  assert (Hne : forall f v acc, format 10 (S f) v acc <> ""%string).
  { induction f as [|f IH]; intros v' acc.
    - cbn [format]. destruct (v' <? 10); discriminate.
    - remember (S f) as f'. cbn [format]. destruct (v' <? 10); [discriminate|]. subst. apply IH. }
  apply Hne.
Qed.

Lemma atoi_itoa v : 0 <= v < 10 ^ 64 -> atoi (Itoa v) = Z.min v (2 ^ 63 - 1).
Proof.
  intros Hv. pose proof (dec_format v Hv) as Hn. apply dec_numeral_iff in Hn.
  assert (Hne : Itoa v <> ""%string).
  { pose proof (itoa_run v Hv) as H. intros He. rewrite He in H. discriminate. }
  unfold atoi. destruct (Z_lt_le_dec v (2 ^ 64)) as [Hlt|Hge].
  - replace (ParseUint (Itoa v) 10 64) with (@inr parse_error Z v).
    2:{ symmetry. apply ParseUint_spec; [lia|lia|]. split; [exact Hne|]. split; assumption. }
    destruct (Z.leb_spec (2 ^ 63) v); lia.
  - rewrite (ParseUint_range 10 ltac:(lia) 64 (Itoa v) v ltac:(lia) Hn Hge). lia.
Qed.

Theorem ijk_parsed pre i j k post : no_I pre = true -> stops is_digit post = true ->
  0 <= i < 10 ^ 64 -> 0 <= j < 10 ^ 64 -> 0 <= k < 10 ^ 64 ->
  parseIJK (pre ++ "I: " ++ Itoa i ++ ", J: " ++ Itoa j ++ ", K: " ++ Itoa k ++ post) =
  Some (Z.min i (2 ^ 63 - 1), Z.min j (2 ^ 63 - 1), Z.min k (2 ^ 63 - 1)).
Proof.
  intros Hpre Hp Hi Hj Hk. unfold parseIJK.
  rewrite find_ijk by (assumption || apply itoa_run; assumption).
  rewrite !atoi_itoa by assumption. reflexivity.
Qed.

Theorem ijk_rejected pre s : no_I pre = true -> no_I s = true -> stops is_digit s = true ->
  parseIJK (pre ++ "I: " ++ s) = None.
Proof.
  intros Hpre Hs Hd. unfold parseIJK, pat_ijk. rewrite find_skip_lit by exact Hpre.
  change ("I: " ++ s)%string with (String "I" (": " ++ s)). cbn [find].
  replace (match_here _ _) with (@None (list string * string)).
  2:{ symmetry. unfold match_here. cbn [rmatch].
      change (String "I" (": " ++ s)) with ("I: " ++ s)%string. rewrite lit_app.
      apply plus_stops, Hd. }
  rewrite <- (app_nil (": " ++ s)). rewrite find_skip_lit.
  - reflexivity.
  - rewrite all_app. exact Hs.
Qed.

(** ** The index *)

Theorem index_parsed pre h post : all (fun c => negb (Ascii.eqb "-" c)) pre = true ->
  run_of is_word h = true -> stops is_word post = true ->
  parseIndex (pre ++ "--- " ++ h ++ post) = Some h.
Proof.
  intros Hpre Hh Hp. unfold parseIndex, pat_index. rewrite find_skip_lit by exact Hpre.
  rewrite (find_here _ _ ([h], post)); [reflexivity|].
  unfold match_here. cbn [rmatch]. rewrite lit_app.
  apply plus_greedy; [exact Hh|exact Hp|]. rewrite upto_app. reflexivity.
Qed.

(** ** Boundaries *)

(** A decimal number as printed by C's [%lf]. *)
Record number := mkN { neg : bool; int_part : string; frac_part : string }.
Definition printed (t : number) : bool := run_of is_digit (int_part t) && run_of is_digit (frac_part t).
Definition magnitude (t : number) : string := (int_part t ++ "." ++ frac_part t)%string.
Definition print (t : number) : string := ((if neg t then "-" else "") ++ magnitude t)%string.

(** Numbers, each preceded by white space, then [post]. *)
Fixpoint render (l : list (string * number)) (post : string) : string :=
  match l with
  | [] => post
  | (w, t) :: l' => (w ++ print t ++ render l' post)%string
  end.

(** What the pattern makes of them: a number and the next one, if that has no
    sign; otherwise the number is dropped. *)
Fixpoint pair_up_go (fuel : nat) (l : list number) : list (number * number) :=
  match fuel, l with
  | S f, t :: u :: l' => if neg u then pair_up_go f (u :: l') else (t, u) :: pair_up_go f l'
  | _, _ => []
  end.
Definition pair_up (l : list number) : list (number * number) := pair_up_go (List.length l) l.

Lemma pair_up_fuel n : forall m l, (List.length l <= n)%nat -> (List.length l <= m)%nat ->
  pair_up_go n l = pair_up_go m l.
Proof.
  induction n as [|n IH]; intros [|m] l Hn Hm.
  - reflexivity.
  - destruct l; [reflexivity|cbn in Hn; lia].
  - destruct l; [reflexivity|cbn in Hm; lia].
  - destruct l as [|t [|u l]]; [reflexivity..|]. cbn [pair_up_go]. cbn [List.length] in *.
    destruct (neg u); [apply IH; cbn [List.length]; lia|]. f_equal. apply IH; lia.
Qed.
Lemma pair_up_nil : pair_up [] = [].
Proof. reflexivity. Qed.
Lemma pair_up_one t : pair_up [t] = [].
Proof. reflexivity. Qed.
Lemma pair_up_cons t u l :
  pair_up (t :: u :: l) = if neg u then pair_up (u :: l) else (t, u) :: pair_up l.
Proof.
  unfold pair_up. cbn [List.length]. set (n := List.length l).
  change (pair_up_go (S (S n)) (t :: u :: l)) with
    (if neg u then pair_up_go (S n) (u :: l) else (t, u) :: pair_up_go (S n) l).
  destruct (neg u); [reflexivity|]. f_equal. apply pair_up_fuel; subst n; lia.
Qed.

Definition not_digit (c : ascii) : bool := negb (is_digit c).

Lemma space_not_digit c : is_space c = true -> is_digit c = false.
Proof.
  unfold is_space, is_digit, between. intros H.
  destruct (Z.leb_spec 48 (code c)), (Z.leb_spec (code c) 57); try reflexivity.
  destruct (Z.leb_spec 9 (code c)), (Z.leb_spec (code c) 10), (Z.leb_spec 12 (code c)),
    (Z.leb_spec (code c) 13), (Z.eqb_spec (code c) 32); cbn in H; try discriminate; lia.
Qed.

Lemma point_nondigit c s : is_digit c = false -> match_here pat_point (String c s) = None.
Proof. intros H. unfold match_here, pat_point, decimal. cbn [rmatch plus]. rewrite H. reflexivity. Qed.

Lemma find_skip_nondigit pre s : all not_digit pre = true ->
  find pat_point (pre ++ s) = find pat_point s.
Proof.
  intros H. induction pre as [|c pre IH]; [reflexivity|]. cbn [all] in H.
  apply andb_prop in H. destruct H as [Hc H]. apply negb_true_iff in Hc.
  cbn [append find]. rewrite point_nondigit by exact Hc. apply IH, H.
Qed.

Lemma find_nondigit s : all not_digit s = true -> find pat_point s = None.
Proof. intros H. rewrite <- (app_nil s), find_skip_nondigit by exact H. reflexivity. Qed.

(** No second number follows. *)
Definition no_number (rest : string) : Prop :=
  forall A (k : string -> string -> option A),
    plus is_space rest (fun t => plus is_digit t (k t)) = None.

Lemma no_number_post post : all not_digit post = true -> no_number post.
Proof.
  intros H A k. destruct (plus is_space post _) as [x|] eqn:Hx; [exfalso|reflexivity].
  apply plus_sound in Hx. destruct Hx as (c & w & t & -> & _ & Hk).
  rewrite all_app in H. apply andb_prop in H. destruct H as [_ H].
  rewrite plus_stops in Hk; [discriminate|]. destruct t as [|d t]; [reflexivity|].
  cbn in H. apply andb_prop in H. destruct H as [H _]. exact H.
Qed.

Lemma no_number_signed w s : run_of is_space w = true -> no_number (w ++ String "-" s).
Proof.
  intros H A k. rewrite plus_det; [reflexivity|exact H|reflexivity|].
  intros c u Hc. apply plus_stops. cbn. rewrite space_not_digit by exact Hc. reflexivity.
Qed.

Lemma run_all p s : run_of p s = true -> all p s = true.
Proof. destruct s; [discriminate|]. exact (fun H => H). Qed.

(** A number not followed by another is passed over. *)
Lemma here_dead a b rest : run_of is_digit a = true -> run_of is_digit b = true ->
  stops is_digit rest = true -> no_number rest ->
  match_here pat_point (a ++ "." ++ b ++ rest) = None.
Proof.
  intros Ha Hb Hs Hr. unfold match_here, pat_point, decimal. cbn [rmatch].
  rewrite plus_det; [|exact Ha|reflexivity|].
  2:{ intros c u Hc. apply not_c0, digit_not; [reflexivity|exact Hc]. }
  rewrite lit_app. rewrite plus_det; [|exact Hb|exact Hs|].
  { apply (Hr _ (fun t t0 => lit "." t0 (fun t1 => plus is_digit t1 (fun t2 =>
      Some (([] ++ [upto (a ++ "." ++ b ++ rest) rest]) ++ [upto t t2], t2)%list)))). }
  intros c u Hc. cbn [plus]. destruct (is_space c) eqn:Hsp; [|reflexivity].
  rewrite space_not_digit in Hc by exact Hsp. discriminate.
Qed.

Lemma here_int b rest : all is_digit b = true -> stops is_digit rest = true ->
  stops (Ascii.eqb ".") rest = true -> match_here pat_point (b ++ rest) = None.
Proof.
  intros Hb Hs Hd. unfold match_here, pat_point, decimal. cbn [rmatch].
  destruct b as [|c b]; [apply plus_stops, Hs|].
  rewrite plus_det; [|exact Hb|exact Hs|].
  - destruct rest as [|d rest]; [reflexivity|]. cbn [lit]. cbn [stops] in Hd.
    destruct (Ascii.eqb "." d); [discriminate|reflexivity].
  - intros d u Hc. apply not_c0, digit_not; [reflexivity|exact Hc].
Qed.

Lemma find_dead_int b rest : all is_digit b = true -> stops is_digit rest = true ->
  stops (Ascii.eqb ".") rest = true -> find pat_point (b ++ rest) = find pat_point rest.
Proof.
  intros Hb Hs Hd. induction b as [|c b IH]; [reflexivity|].
  cbn [append find]. change (String c (b ++ rest)) with (String c b ++ rest)%string.
  rewrite here_int by assumption. apply IH. cbn in Hb. apply andb_prop in Hb. apply Hb.
Qed.

Lemma find_dead a b rest : all is_digit a = true -> run_of is_digit b = true ->
  stops is_digit rest = true -> stops (Ascii.eqb ".") rest = true -> no_number rest ->
  find pat_point (a ++ "." ++ b ++ rest) = find pat_point rest.
Proof.
  intros Ha Hb Hs Hd Hr. induction a as [|c a IH].
  - change ("" ++ "." ++ b ++ rest)%string with ("." ++ (b ++ rest))%string.
    rewrite find_skip_nondigit by reflexivity. apply find_dead_int; [apply run_all, Hb|exact Hs|exact Hd].
  - change (String c a ++ "." ++ b ++ rest)%string with (String c (a ++ "." ++ b ++ rest)).
    rewrite find_cons. change (String c (a ++ "." ++ b ++ rest)) with (String c a ++ "." ++ b ++ rest)%string.
    rewrite here_dead by assumption. apply IH. cbn in Ha. apply andb_prop in Ha. apply Ha.
Qed.

Lemma here_pair a b w a' b' rest : run_of is_digit a = true -> run_of is_digit b = true ->
  run_of is_space w = true -> run_of is_digit a' = true -> run_of is_digit b' = true ->
  stops is_digit rest = true ->
  match_here pat_point ((a ++ "." ++ b) ++ w ++ (a' ++ "." ++ b') ++ rest) =
  Some ([a ++ "." ++ b; a' ++ "." ++ b']%string, rest).
Proof.
  intros Ha Hb Hw Ha' Hb' Hs.
  assert (Hdot : forall A (k : string -> option A) c u, is_digit c = true -> lit "." (String c u) k = None).
  { intros A k c u Hc. apply not_c0, digit_not; [reflexivity|exact Hc]. }
  assert (Hsp : forall A (k : string -> option A) c u, is_digit c = true -> plus is_space (String c u) k = None).
  { intros A k c u Hc. cbn [plus]. destruct (is_space c) eqn:Hsp; [|reflexivity].
    rewrite space_not_digit in Hc by exact Hsp. discriminate. }
  assert (Hrun : forall p s t, run_of p s = true -> stops (fun c => negb (p c)) (s ++ t) = true).
  { intros p [|c s] t H; [discriminate|]. cbn in *. apply andb_prop in H. rewrite negb_involutive. apply H. }
  assert (Hst : forall p q s t, run_of p s = true -> (forall c, p c = true -> q c = false) ->
            stops q (s ++ t) = true).
  { intros p q [|c s] t H Hq; [discriminate|]. cbn in *. apply andb_prop in H.
    rewrite Hq by apply H. reflexivity. }
  unfold match_here, pat_point, decimal. cbn [rmatch].
  rewrite <- !app_assoc.
  rewrite plus_det; [|exact Ha|reflexivity|intros; apply Hdot; assumption].
  rewrite lit_app. rewrite plus_det; [|exact Hb| |intros; apply Hsp; assumption].
  2:{ apply (Hst is_space); [exact Hw|apply space_not_digit]. }
  replace (a ++ "." ++ b ++ w ++ a' ++ "." ++ b' ++ rest)%string
    with ((a ++ "." ++ b) ++ w ++ a' ++ "." ++ b' ++ rest)%string by (rewrite <- !app_assoc; reflexivity).
  rewrite upto_app. cbn [List.app].
  rewrite plus_det; [|exact Hw| |].
  2:{ apply (Hst is_digit); [exact Ha'|]. intros c Hc. destruct (is_space c) eqn:E; [|reflexivity].
      rewrite space_not_digit in Hc by exact E. discriminate. }
  2:{ intros c u Hc. apply plus_stops. cbn. rewrite space_not_digit by exact Hc. reflexivity. }
  rewrite plus_det; [|exact Ha'|reflexivity|intros; apply Hdot; assumption].
  rewrite lit_app. apply plus_greedy; [exact Hb'|exact Hs|].
  replace (a' ++ "." ++ b' ++ rest)%string with ((a' ++ "." ++ b') ++ rest)%string
    by (rewrite <- !app_assoc; reflexivity).
  rewrite upto_app. reflexivity.
Qed.

Definition wellprinted (l : list (string * number)) : Prop :=
  Forall (fun wt => run_of is_space (fst wt) = true /\ printed (snd wt) = true) l.

Lemma render_stops l post q : wellprinted l -> (forall c, is_space c = true -> q c = false) ->
  stops q post = true -> stops q (render l post) = true.
Proof.
  intros Hl Hq Hp. destruct l as [|[w t] l]; [exact Hp|].
  inversion Hl as [|? ? [Hw Ht] Hl']; subst. cbn [fst] in Hw. cbn [render].
  destruct w as [|c w]; [discriminate|]. cbn in *. apply andb_prop in Hw. rewrite Hq by apply Hw. reflexivity.
Qed.

Definition plain (post : string) : Prop := all not_digit post = true /\ stops (Ascii.eqb ".") post = true.

Lemma plain_stops post : plain post -> stops is_digit post = true.
Proof. intros [H _]. destruct post as [|c s]; [reflexivity|]. cbn in *. apply andb_prop in H. apply H. Qed.

Lemma space_all w : run_of is_space w = true -> all not_digit w = true.
Proof.
  intros H. apply run_all in H. induction w as [|c w IH]; [reflexivity|]. cbn in *.
  apply andb_prop in H. destruct H as [Hc H]. unfold not_digit at 1.
  rewrite space_not_digit by exact Hc. cbn. apply IH, H.
Qed.

Lemma find_first w t s : run_of is_space w = true ->
  find pat_point (w ++ print t ++ s) = find pat_point (magnitude t ++ s).
Proof.
  intros Hw. rewrite find_skip_nondigit by (apply space_all, Hw).
  unfold print. rewrite <- app_assoc. apply find_skip_nondigit. destruct (neg t); reflexivity.
Qed.

Lemma space_dot c : is_space c = true -> Ascii.eqb "." c = false.
Proof. intros H. apply Ascii.eqb_neq. intros <-. discriminate. Qed.

Lemma find_all_render n : forall l post fuel, (List.length l <= n)%nat -> (List.length l < fuel)%nat ->
  wellprinted l -> plain post ->
  find_all_go fuel pat_point (render l post) =
  map (fun tu => [magnitude (fst tu); magnitude (snd tu)]) (pair_up (map snd l)).
Proof.
  induction n as [|n IH]; intros l post fuel Hn Hf Hl Hp.
  { destruct l; [|cbn in Hn; lia]. destruct fuel; [lia|]. cbn [find_all_go render].
    rewrite find_nondigit by apply Hp. reflexivity. }
  destruct fuel as [|fuel]; [lia|]. destruct l as [|[w t] l].
  { cbn [find_all_go render]. rewrite find_nondigit by apply Hp. reflexivity. }
  inversion Hl as [|? ? [Hw Ht] Hl']; subst. cbn [fst snd] in Hw, Ht.
  unfold printed in Ht. apply andb_prop in Ht. destruct Ht as [Hti Htf].
  pose proof (plain_stops post Hp) as Hps.
  assert (Hst : stops is_digit (render l post) = true).
  { apply render_stops; [exact Hl'|apply space_not_digit|exact Hps]. }
  assert (Hsd : stops (Ascii.eqb ".") (render l post) = true).
  { apply render_stops; [exact Hl'|apply space_dot|apply Hp]. }
  assert (Hdead : no_number (render l post) ->
    find pat_point (render ((w, t) :: l) post) = find pat_point (render l post)).
  { intros Hno. cbn [render]. rewrite find_first by exact Hw. unfold magnitude. rewrite <- !app_assoc.
    apply find_dead; try assumption. apply run_all, Hti. }
  destruct l as [|[w' u] l].
  { cbn [find_all_go]. rewrite Hdead by (cbn [render]; apply no_number_post, Hp).
    cbn [render]. rewrite find_nondigit by apply Hp. reflexivity. }
  inversion Hl' as [|? ? [Hw' Hu] Hl'']; subst. cbn [fst snd] in Hw', Hu.
  cbn [map snd]. rewrite pair_up_cons. destruct (neg u) eqn:Hneg.
  - cbn [find_all_go]. rewrite Hdead.
    2:{ cbn [render]. unfold print. rewrite Hneg. cbn [append]. apply no_number_signed, Hw'. }
    change (match find pat_point (render ((w', u) :: l) post) with
            | Some (g, t0) => g :: find_all_go fuel pat_point t0
            | None => [] end)
      with (find_all_go (S fuel) pat_point (render ((w', u) :: l) post)).
    rewrite (IH _ post); [reflexivity| | |exact Hl'|exact Hp]; cbn [List.length] in *; lia.
  - assert (Hps' : stops is_digit (render l post) = true).
    { apply render_stops; [exact Hl''|apply space_not_digit|exact Hps]. }
    unfold printed in Hu. apply andb_prop in Hu. destruct Hu as [Hui Huf].
    cbn [find_all_go]. cbn [render]. rewrite find_first by exact Hw.
    unfold print. rewrite Hneg. cbn [append].
    rewrite (find_here _ _ ([magnitude t; magnitude u], render l post)).
    2:{ unfold magnitude. apply here_pair; assumption. }
    cbn [map fst snd]. f_equal.
    apply IH; [cbn [List.length] in *; lia|cbn [List.length] in *; lia|exact Hl''|exact Hp].
Qed.

Lemma render_length l post : wellprinted l -> (List.length l <= String.length (render l post))%nat.
Proof.
  induction l as [|[w t] l IH]; intros H; [cbn; lia|]. inversion H as [|? ? [Hw _] Hl]; subst.
  cbn [fst] in Hw. cbn [render List.length]. rewrite !app_length. specialize (IH Hl).
  destruct w; [discriminate|]. cbn [String.length]. lia.
Qed.

Theorem boundary_groups pre l post : all not_digit pre = true -> wellprinted l -> plain post ->
  find_all pat_point (pre ++ render l post) =
  map (fun tu => [magnitude (fst tu); magnitude (snd tu)]) (pair_up (map snd l)).
Proof.
  intros Hpre Hl Hp. unfold find_all.
  assert (Hlen : (List.length l < S (String.length (pre ++ render l post)))%nat).
  { rewrite app_length. pose proof (render_length l post Hl). lia. }
  rewrite <- (find_all_render (List.length l) l post _ (le_n _) Hlen Hl Hp).
  cbn [find_all_go]. rewrite find_skip_nondigit by exact Hpre. reflexivity.
Qed.

Lemma points_map {F} (pf : string -> option F) (f : number -> F) ps :
  (forall t u, In (t, u) ps -> pf (magnitude t) = Some (f t) /\ pf (magnitude u) = Some (f u)) ->
  points pf (map (fun tu => [magnitude (fst tu); magnitude (snd tu)]) ps) =
  Some (map (fun tu => (f (fst tu), f (snd tu))) ps).
Proof.
  intros H. induction ps as [|[t u] ps IH]; [reflexivity|]. cbn [map fst snd points].
  destruct (H t u (or_introl eq_refl)) as [-> ->]. rewrite IH; [reflexivity|].
  intros t' u' Hi. apply H. right. exact Hi.
Qed.

Lemma pair_up_in n : forall l t u, (List.length l <= n)%nat ->
  In (t, u) (pair_up l) -> In t l /\ In u l.
Proof.
  induction n as [|n IH]; intros l t u Hn H.
  { destruct l; [contradiction|cbn in Hn; lia]. }
  destruct l as [|a [|b l]]; [contradiction..|]. rewrite pair_up_cons in H. cbn [List.length] in Hn.
  destruct (neg b).
  - destruct (IH (b :: l) t u ltac:(cbn [List.length]; lia) H) as [H1 H2].
    split; right; assumption.
  - destruct H as [H|H].
    + inversion H. subst. split; [left; reflexivity|right; left; reflexivity].
    + destruct (IH l t u ltac:(lia) H) as [H1 H2]. split; right; right; assumption.
Qed.

(** ** The four quadrants *)

Definition flat (ps : list (number * number)) : list number :=
  flat_map (fun p => [fst p; snd p]) ps.

Lemma pair_up_north_east ps : Forall (fun p => neg (snd p) = false) ps -> pair_up (flat ps) = ps.
Proof.
  induction ps as [|[a b] ps IH]; intros H; [reflexivity|]. inversion H as [|? ? Hb Hps]; subst.
  cbn [flat flat_map fst snd List.app] in *. rewrite pair_up_cons, Hb. f_equal. apply IH, Hps.
Qed.

(** Each longitude with the next latitude. *)
Fixpoint shifted (ps : list (number * number)) : list (number * number) :=
  match ps with
  | p :: ((q :: _) as ps') => (snd p, fst q) :: shifted ps'
  | _ => []
  end.

Lemma pair_up_north_west ps :
  Forall (fun p => neg (fst p) = false /\ neg (snd p) = true) ps -> pair_up (flat ps) = shifted ps.
Proof.
  assert (HA : forall ps b, Forall (fun p => neg (fst p) = false /\ neg (snd p) = true) ps ->
    pair_up (b :: flat ps) = match ps with [] => [] | q :: _ => (b, fst q) :: shifted ps end).
  { clear ps. induction ps as [|[a c] ps IH]; intros b H; [reflexivity|].
    inversion H as [|? ? [Ha Hc] Hps]; subst. cbn [flat flat_map fst snd List.app] in *.
    rewrite pair_up_cons, Ha. fold (flat ps). rewrite IH by exact Hps.
    destruct ps as [|[d e] ps]; reflexivity. }
  intros H. destruct ps as [|[a b] ps]; [reflexivity|].
  inversion H as [|? ? [Ha Hb] Hps]; subst. cbn [flat flat_map fst snd List.app] in *.
  rewrite pair_up_cons, Hb. fold (flat ps). rewrite HA by exact Hps.
  destruct ps as [|[d e] ps]; reflexivity.
Qed.

Lemma pair_up_south_west l : Forall (fun t => neg t = true) l -> pair_up l = [].
Proof.
  induction l as [|a [|b l] IH]; intros H; [reflexivity..|].
  inversion H as [|? ? Ha Hl]; subst. inversion Hl as [|? ? Hb Hl']; subst.
  rewrite pair_up_cons, Hb. apply IH, Hl.
Qed.
