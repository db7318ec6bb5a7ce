(** [lia]/[nia] with powers of two treated as opaque non-negative integers: the
    positivity saturation of the stock tactics is exponential in their number. *)
From Coq Require Import ZArith Lia.
Local Open Scope Z_scope.

Ltac is_numeral x :=
  match x with
  | Z0 => idtac
  | Zpos ?p => is_numeral_pos p
  | Zneg ?p => is_numeral_pos p
  end
with is_numeral_pos p :=
  match p with xH => idtac | xO ?q => is_numeral_pos q | xI ?q => is_numeral_pos q end.

Ltac abs_one x :=
  tryif is_numeral x then fail else
  let p := fresh "pw" in
  pose proof (Z.pow_nonneg 2 x ltac:(discriminate));
  set (p := Z.pow 2 x) in *; clearbody p.

Ltac abs_pow :=
  repeat match goal with
  | |- context [Z.pow 2 ?x] => abs_one x
  | H : context [Z.pow 2 ?x] |- _ => abs_one x
  end.

(** Boolean equations that mention no comparison are of no use to [lia] but
    costly to translate. *)
Ltac drop_bools :=
  repeat match goal with
  | H : @eq bool ?a ?b |- _ =>
      lazymatch type of H with
      | context [Z.leb] => fail | context [Z.ltb] => fail | context [Z.eqb] => fail
      | context [Z.geb] => fail | context [Z.gtb] => fail | context [Z.odd] => fail
      | context [Z.even] => fail
      | _ => clear H
      end
  end.

Tactic Notation "lia" := abs_pow; first [ solve [ drop_bools; Lia.lia ] | Lia.lia ].
Tactic Notation "nia" := abs_pow; Lia.nia.
