(** The regular expressions of Text.v: the matcher finds the leftmost match, and
    what it returns on the output of the H3 tools. *)
From Coq Require Import ZArith List Bool Ascii String Lia.
From Verif Require Import Text TextFacts.
Import ListNotations.
Local Open Scope Z_scope.

(** ** Specification of matching *)

Fixpoint all (p : ascii -> bool) (s : string) : bool :=
  match s with EmptyString => true | String c s' => p c && all p s' end.

Inductive matches : re -> string -> list string -> Prop :=
| m_lit l : matches (Lit l) l []
| m_plus p c s : all p (String c s) = true -> matches (Plus p) (String c s) []
| m_seq a b s t g h : matches a s g -> matches b t h -> matches (Seq a b) (s ++ t) (g ++ h)
| m_group a s g : matches a s g -> matches (Group a) s (g ++ [s]).

(** ** Strings *)

Lemma app_nil s : (s ++ "")%string = s.
Proof. induction s as [|c s IH]; [reflexivity|]. cbn. rewrite IH. reflexivity. Qed.
Lemma app_assoc a b c : (a ++ (b ++ c))%string = ((a ++ b) ++ c)%string.
Proof. induction a as [|x a IH]; [reflexivity|]. cbn. rewrite IH. reflexivity. Qed.
Lemma app_length a b : String.length (a ++ b) = (String.length a + String.length b)%nat.
Proof. induction a as [|x a IH]; [reflexivity|]. cbn. rewrite IH. reflexivity. Qed.
Lemma all_app p a b : all p (a ++ b) = all p a && all p b.
Proof. induction a as [|x a IH]; [reflexivity|]. cbn. rewrite IH. apply andb_assoc. Qed.

Lemma upto_app w t : upto (w ++ t) t = w.
Proof.
  unfold upto. rewrite app_length. replace (_ - _)%nat with (String.length w) by lia.
  induction w as [|c w IH]; cbn; [destruct t; reflexivity|]. rewrite IH. reflexivity.
Qed.

(** ** Soundness and completeness of the matcher *)

Section Matcher.
Context {A : Type}.
Implicit Types (k : string -> option A).

Lemma lit_some l : forall s k x, lit l s k = Some x <-> exists t, s = (l ++ t)%string /\ k t = Some x.
Proof.
  induction l as [|c l IH]; intros s k x; cbn [lit].
  - split; [intros H; exists s; auto|]. intros (t & -> & H). exact H.
  - destruct s as [|d s].
    + split; [discriminate|]. intros (t & H & _). discriminate.
    + destruct (Ascii.eqb_spec c d) as [->|Hne].
      * rewrite IH. split; intros (t & Ht & Hk); exists t; (split; [|exact Hk]).
        -- subst s. reflexivity.
        -- inversion Ht. reflexivity.
      * split; [discriminate|]. intros (t & Ht & _). inversion Ht. congruence.
Qed.

Lemma star_sound p : forall s k x, star p s k = Some x ->
  exists w t, s = (w ++ t)%string /\ all p w = true /\ k t = Some x.
Proof.
  induction s as [|c s IH]; intros k x H; cbn [star] in H.
  - exists ""%string, ""%string. auto.
  - destruct (p c) eqn:Hp.
    + destruct (star p s k) as [y|] eqn:Hs.
      * inversion H. subst y. destruct (IH k x Hs) as (w & t & -> & Hw & Hk).
        exists (String c w), t. split; [reflexivity|]. split; [cbn; rewrite Hp; exact Hw|exact Hk].
      * exists ""%string, (String c s). auto.
    + exists ""%string, (String c s). auto.
Qed.

Lemma star_complete p w : forall t k, all p w = true -> k t <> None -> star p (w ++ t) k <> None.
Proof.
  induction w as [|c w IH]; intros t k Hw Hk; cbn [append star].
  - destruct t as [|c t]; cbn [star]; [exact Hk|].
    destruct (p c); [|exact Hk]. destruct (star p t k); [discriminate|exact Hk].
  - cbn in Hw. apply andb_prop in Hw. destruct Hw as [Hc Hw]. rewrite Hc.
    specialize (IH t k Hw Hk). destruct (star p (w ++ t) k); [discriminate|contradiction].
Qed.

Lemma plus_sound p s k x : plus p s k = Some x ->
  exists c w t, s = (String c w ++ t)%string /\ all p (String c w) = true /\ k t = Some x.
Proof.
  destruct s as [|c s]; cbn [plus]; [discriminate|]. destruct (p c) eqn:Hp; [|discriminate].
  intros H. apply star_sound in H. destruct H as (w & t & -> & Hw & Hk).
  exists c, w, t. split; [reflexivity|]. split; [cbn; rewrite Hp; exact Hw|exact Hk].
Qed.

Lemma rmatch_sound r : forall s acc (k : string -> list string -> option A) x,
  rmatch r s acc k = Some x ->
  exists w t g, s = (w ++ t)%string /\ matches r w g /\ k t (acc ++ g) = Some x.
Proof.
  induction r as [l|p|a IHa b IHb|a IHa]; intros s acc k x H; cbn [rmatch] in H.
  - apply lit_some in H. destruct H as (t & -> & Hk). exists l, t, [].
    rewrite app_nil_r. split; [reflexivity|]. split; [constructor|exact Hk].
  - apply plus_sound in H. destruct H as (c & w & t & -> & Hw & Hk). exists (String c w), t, [].
    rewrite app_nil_r. split; [reflexivity|]. split; [constructor; exact Hw|exact Hk].
  - apply IHa in H. destruct H as (w & t & g & -> & Hm & H).
    apply IHb in H. destruct H as (w' & t' & g' & -> & Hm' & Hk).
    exists (w ++ w')%string, t', (g ++ g'). rewrite <- app_assoc, List.app_assoc.
    split; [reflexivity|]. split; [constructor; assumption|exact Hk].
  - apply IHa in H. destruct H as (w & t & g & -> & Hm & H). rewrite upto_app in H.
    exists w, t, (g ++ [w]). rewrite List.app_assoc.
    split; [reflexivity|]. split; [constructor; assumption|exact H].
Qed.

Lemma rmatch_complete r w g : matches r w g ->
  forall t acc (k : string -> list string -> option A), k t (acc ++ g) <> None ->
  rmatch r (w ++ t) acc k <> None.
Proof.
  induction 1 as [l|p c s Hs|a b s t' g h Ha IHa Hb IHb|a s g Ha IHa]; intros t acc k Hk; cbn [rmatch].
  - rewrite app_nil_r in Hk. destruct (k t acc) as [x|] eqn:Hx; [|contradiction].
    assert (Hl : lit l (l ++ t) (fun t => k t acc) = Some x) by (apply lit_some; exists t; auto).
    rewrite Hl. discriminate.
  - rewrite app_nil_r in Hk. cbn [all] in Hs. apply andb_prop in Hs. destruct Hs as [Hc Hs].
    cbn [append plus]. rewrite Hc. apply star_complete; assumption.
  - rewrite <- app_assoc. apply IHa. apply IHb. rewrite <- List.app_assoc. exact Hk.
  - apply IHa. rewrite upto_app, <- List.app_assoc. exact Hk.
Qed.
End Matcher.

Lemma match_here_sound r s g t : match_here r s = Some (g, t) ->
  exists w, s = (w ++ t)%string /\ matches r w g.
Proof.
  unfold match_here. intros H. apply rmatch_sound in H.
  destruct H as (w & t' & g' & -> & Hm & Hk). cbn [List.app] in Hk. inversion Hk. subst.
  exists w. auto.
Qed.

Lemma match_here_none r s : match_here r s = None <->
  forall w t g, s = (w ++ t)%string -> ~ matches r w g.
Proof.
  split.
  - intros H w t g -> Hm. revert H. unfold match_here.
    apply (rmatch_complete r w g Hm). discriminate.
  - intros H. destruct (match_here r s) as [[g t]|] eqn:Hm; [exfalso|reflexivity].
    apply match_here_sound in Hm. destruct Hm as (w & -> & Hm). exact (H w t g eq_refl Hm).
Qed.

(** [find] returns a match, and none starts further to the left. *)
Theorem find_some r s g t : find r s = Some (g, t) ->
  exists pre w, s = (pre ++ w ++ t)%string /\ matches r w g /\
    forall pre' w' t' g', s = (pre' ++ w' ++ t')%string -> matches r w' g' ->
      (String.length pre <= String.length pre')%nat.
Proof.
  induction s as [|c s IH]; cbn [find]; intros H.
  - destruct (match_here r "") as [[g0 t0]|] eqn:Hm; [|discriminate]. inversion H. subst.
    apply match_here_sound in Hm. destruct Hm as (w & Hw & Hm). exists ""%string, w.
    split; [exact Hw|]. split; [exact Hm|]. intros. cbn. lia.
  - destruct (match_here r (String c s)) as [[g0 t0]|] eqn:Hm.
    + inversion H. subst. apply match_here_sound in Hm. destruct Hm as (w & Hw & Hm).
      exists ""%string, w. split; [exact Hw|]. split; [exact Hm|]. intros. cbn. lia.
    + destruct (IH H) as (pre & w & -> & Hw & Hl). exists (String c pre), w.
      split; [reflexivity|]. split; [exact Hw|].
      intros [|c' pre'] w' t' g' He Hw'.
      * exfalso. rewrite match_here_none in Hm. exact (Hm w' t' g' He Hw').
      * inversion He. cbn. apply le_n_S. eapply Hl; eauto.
Qed.

Theorem find_none r s : find r s = None <->
  forall pre w t g, s = (pre ++ w ++ t)%string -> ~ matches r w g.
Proof.
  induction s as [|c s IH]; cbn [find].
  - destruct (match_here r "") as [[g0 t0]|] eqn:Hm.
    + split; [discriminate|]. intros H. exfalso. apply match_here_sound in Hm.
      destruct Hm as (w & Hw & Hm). exact (H ""%string w t0 g0 Hw Hm).
    + split; [|reflexivity]. intros _ pre w t g He. rewrite match_here_none in Hm.
      destruct pre; [|discriminate]. exact (Hm w t g He).
  - destruct (match_here r (String c s)) as [[g0 t0]|] eqn:Hm.
    + split; [discriminate|]. intros H. exfalso. apply match_here_sound in Hm.
      destruct Hm as (w & Hw & Hm). exact (H ""%string w t0 g0 Hw Hm).
    + rewrite IH. split.
      * intros H [|c' pre] w t g He.
        -- rewrite match_here_none in Hm. exact (Hm w t g He).
        -- injection He as _ He'. exact (H pre w t g He').
      * intros H pre w t g -> Hw. exact (H (String c pre) w t g eq_refl Hw).
Qed.

(** ** Runs of a class *)

(** [s] does not start with a byte of the class. *)
Definition stops (p : ascii -> bool) (s : string) : bool :=
  match s with EmptyString => true | String c _ => negb (p c) end.
Definition run_of (p : ascii -> bool) (s : string) : bool :=
  match s with EmptyString => false | _ => all p s end.

Lemma star_greedy {A} p d s (k : string -> option A) x : all p d = true -> stops p s = true ->
  k s = Some x -> star p (d ++ s) k = Some x.
Proof.
  intros Hd Hs Hk. induction d as [|c d IH]; cbn [append star].
  - destruct s as [|c s]; cbn [star]; [exact Hk|]. cbn in Hs. destruct (p c); [discriminate|exact Hk].
  - cbn in Hd. apply andb_prop in Hd. destruct Hd as [Hc Hd]. rewrite Hc, (IH Hd). reflexivity.
Qed.

Lemma star_det {A} p d s (k : string -> option A) : all p d = true -> stops p s = true ->
  (forall c u, p c = true -> k (String c u) = None) -> star p (d ++ s) k = k s.
Proof.
  intros Hd Hs Hk. induction d as [|c d IH]; cbn [append star].
  - destruct s as [|c s]; cbn [star]; [reflexivity|]. cbn in Hs. destruct (p c); [discriminate|reflexivity].
  - cbn in Hd. apply andb_prop in Hd. destruct Hd as [Hc Hd]. rewrite Hc, (IH Hd), (Hk c _ Hc).
    destruct (k s); reflexivity.
Qed.

Lemma plus_det {A} p d s (k : string -> option A) : run_of p d = true -> stops p s = true ->
  (forall c u, p c = true -> k (String c u) = None) -> plus p (d ++ s) k = k s.
Proof.
  intros Hd Hs Hk. destruct d as [|c d]; [discriminate|]. cbn [run_of all] in Hd.
  apply andb_prop in Hd. destruct Hd as [Hc Hd]. cbn [append plus]. rewrite Hc.
  apply star_det; assumption.
Qed.

Lemma plus_greedy {A} p d s (k : string -> option A) x : run_of p d = true -> stops p s = true ->
  k s = Some x -> plus p (d ++ s) k = Some x.
Proof.
  intros Hd Hs Hk. destruct d as [|c d]; [discriminate|]. cbn [run_of all] in Hd.
  apply andb_prop in Hd. destruct Hd as [Hc Hd]. cbn [append plus]. rewrite Hc.
  apply star_greedy; assumption.
Qed.

Lemma plus_stops {A} p s (k : string -> option A) : stops p s = true -> plus p s k = None.
Proof. destruct s as [|c s]; [reflexivity|]. cbn. destruct (p c); [discriminate|reflexivity]. Qed.

Lemma lit_app {A} l s (k : string -> option A) : lit l (l ++ s) k = k s.
Proof.
  destruct (k s) as [x|] eqn:Hk.
  - apply lit_some. exists s. auto.
  - destruct (lit l (l ++ s) k) as [x|] eqn:Hl; [|reflexivity].
    apply lit_some in Hl. destruct Hl as (t & Ht & Hk').
    assert (s = t) as ->; [|congruence].
    clear - Ht. induction l as [|c l IH]; [exact Ht|]. inversion Ht. auto.
Qed.
