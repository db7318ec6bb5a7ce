(** The parts of util/util.go and proximity/proximity.go that read and write
    text: hexadecimal floats, the output of the H3 command-line tools, the file
    of cells.  A Go string is a [string] of bytes.  The functions of Go's
    libraries used there ([strconv], [regexp], [encoding/hex], [strings]) are
    restated from their documentation and source; the subprocesses are not
    modelled, their output is an argument. *)
From Coq Require Import ZArith List Bool Ascii String.
Import ListNotations.
Local Open Scope Z_scope.

(** ** Bytes *)

Definition code (c : ascii) : Z := Z.of_N (N_of_ascii c).
Definition byte (z : Z) : ascii := ascii_of_N (Z.to_N z).
Definition between (l h : Z) (c : ascii) : bool := (l <=? code c) && (code c <=? h).

(** The Perl classes [\d], [\s] and [\w] of Go's [regexp]: ASCII only. *)
Definition is_digit (c : ascii) : bool := between 48 57 c.
Definition is_space (c : ascii) : bool :=
  between 9 10 c || between 12 13 c || (code c =? 32).
Definition is_word (c : ascii) : bool :=
  is_digit c || between 65 90 c || between 97 122 c || (code c =? 95).

(** ** strconv *)

(** The digits of [v] in front of [acc], most significant first.  [fuel] bounds
    the number of digits. *)
Definition digit (d : Z) : ascii := if d <? 10 then byte (48 + d) else byte (87 + d).
Fixpoint format (base : Z) (fuel : nat) (v : Z) (acc : string) : string :=
  match fuel with
  | O => acc
  | S f => if v <? base then String (digit v) acc
           else format base f (v / base) (String (digit (v mod base)) acc)
  end.

(** [strconv.FormatUint(v, 16)] and [strconv.Itoa] of a non-negative number. *)
Definition FormatUint16 (v : Z) : string := format 16 64 v "".
Definition Itoa (v : Z) : string := format 10 64 v "".

Inductive parse_error := ErrSyntax | ErrRange.

(** The digit of a byte in [strconv.ParseUint]: letters of either case count
    from ten; other bytes are no digits. *)
Definition digit_value (c : ascii) : option Z :=
  if between 48 57 c then Some (code c - 48)
  else if between 97 122 c then Some (code c - 87)
  else if between 65 90 c then Some (code c - 55)
  else None.

(** The loop of [strconv.ParseUint(s, base, bitSize)], on [uint64] values.  The
    tests for overflow of the multiplication ([n >= cutoff]) and of the addition
    come after the syntax test of each byte. *)
Fixpoint parse_loop (base bitSize n : Z) (s : string) : parse_error + Z :=
  match s with
  | EmptyString => inr n
  | String c s' =>
      match digit_value c with
      | None => inl ErrSyntax
      | Some d =>
          if base <=? d then inl ErrSyntax
          else if (2 ^ 64 - 1) / base + 1 <=? n then inl ErrRange
          else
            let n0 := n * base in
            let n1 := (n0 + d) mod 2 ^ 64 in
            if (n1 <? n0) || (2 ^ bitSize - 1 <? n1) then inl ErrRange
            else parse_loop base bitSize n1 s'
      end
  end.
Definition ParseUint (s : string) (base bitSize : Z) : parse_error + Z :=
  match s with
  | EmptyString => inl ErrSyntax
  | _ => parse_loop base bitSize 0 s
  end.

(** [strconv.Atoi] as used here, on strings of digits, with the error dropped:
    [ParseInt] returns the largest [int] for a number out of range. *)
Definition atoi (s : string) : Z :=
  match ParseUint s 10 64 with
  | inr n => if 2 ^ 63 <=? n then 2 ^ 63 - 1 else n
  | inl ErrRange => 2 ^ 63 - 1
  | inl ErrSyntax => 0
  end.

(** ** util/util.go *)

(** util/util.go:388-398 and 400-410.  A float is its bit pattern, as in
    [math.Float64frombits]. *)
Definition HexToFloat (s : string) : parse_error + Z := ParseUint s 16 64.
Definition HexToFloat32 (s : string) : parse_error + Z := ParseUint s 16 32.

(** [hex.DecodeString]: the bytes decoded before the first error. *)
Definition hex_digit (c : ascii) : option Z :=
  match digit_value c with Some d => if d <? 16 then Some d else None | None => None end.
Fixpoint DecodeString (s : string) : list Z * bool :=
  match s with
  | EmptyString => ([], true)
  | String a EmptyString => ([], false)
  | String a (String b s') =>
      match hex_digit a, hex_digit b with
      | Some x, Some y => let '(l, ok) := DecodeString s' in (16 * x + y :: l, ok)
      | _, _ => ([], false)
      end
  end.
Fixpoint bytes (s : string) : list Z :=
  match s with EmptyString => [] | String c s' => code c :: bytes s' end.

(** util/util.go:463-484; the error is logged and otherwise ignored. *)
Definition StrToIntSlice (s : string) (hexRepresentation : bool) : list Z :=
  if hexRepresentation then fst (DecodeString s) else bytes s.

(** ** regexp *)

(** The syntax used by the four patterns. *)
Inductive re :=
| Lit (s : string)
| Plus (p : ascii -> bool)
| Seq (a b : re)
| Group (a : re).

(** Go's [regexp] returns the match that a backtracking engine finds first:
    leftmost, then greedy.  [k] is what follows; groups are collected in order. *)
Fixpoint lit {A} (l s : string) (k : string -> option A) : option A :=
  match l with
  | EmptyString => k s
  | String c l' =>
      match s with
      | String d s' => if Ascii.eqb c d then lit l' s' k else None
      | EmptyString => None
      end
  end.
Fixpoint star {A} (p : ascii -> bool) (s : string) (k : string -> option A) : option A :=
  match s with
  | String c s' =>
      if p c then match star p s' k with Some x => Some x | None => k s end else k s
  | EmptyString => k s
  end.
Definition plus {A} (p : ascii -> bool) (s : string) (k : string -> option A) : option A :=
  match s with
  | String c s' => if p c then star p s' k else None
  | EmptyString => None
  end.
(** The part of [s] in front of its suffix [t]. *)
Definition upto (s t : string) : string := substring 0 (length s - length t) s.
Fixpoint rmatch {A} (r : re) (s : string) (acc : list string)
  (k : string -> list string -> option A) : option A :=
  match r with
  | Lit l => lit l s (fun t => k t acc)
  | Plus p => plus p s (fun t => k t acc)
  | Seq a b => rmatch a s acc (fun t acc' => rmatch b t acc' k)
  | Group a => rmatch a s acc (fun t acc' => k t (acc' ++ [upto s t]))
  end.

(** The groups of the match at the beginning of [s], and what follows it. *)
Definition match_here (r : re) (s : string) : option (list string * string) :=
  rmatch r s [] (fun t acc => Some (acc, t)).
(** The leftmost match: [FindStringSubmatch]. *)
Fixpoint find (r : re) (s : string) : option (list string * string) :=
  match match_here r s with
  | Some x => Some x
  | None => match s with String _ s' => find r s' | EmptyString => None end
  end.
(** [FindAllStringSubmatch(s, -1)] for a pattern that matches no empty text. *)
Fixpoint find_all_go (fuel : nat) (r : re) (s : string) : list (list string) :=
  match fuel with
  | O => []
  | S f => match find r s with
           | Some (g, t) => g :: find_all_go f r t
           | None => []
           end
  end.
Definition find_all (r : re) (s : string) : list (list string) :=
  find_all_go (S (length s)) r s.

(** ** Output of the H3 tools *)

(** util/util.go:431, proximity/proximity.go:88: [I: (\d+), J: (\d+), K: (\d+)] *)
Definition pat_ijk : re :=
  Seq (Lit "I: ") (Seq (Group (Plus is_digit)) (Seq (Lit ", J: ")
    (Seq (Group (Plus is_digit)) (Seq (Lit ", K: ") (Group (Plus is_digit)))))).

(** util/util.go:430-445, proximity/proximity.go:88-100 *)
Definition parseIJK (output : string) : option (Z * Z * Z) :=
  match find pat_ijk output with
  | Some ([i; j; k], _) => Some (atoi i, atoi j, atoi k)
  | _ => None
  end.

(** proximity/proximity.go:109: [--- (\w+)] *)
Definition pat_index : re := Seq (Lit "--- ") (Group (Plus is_word)).

(** proximity/proximity.go:109-115 *)
Definition parseIndex (output : string) : option string :=
  match find pat_index output with
  | Some ([h], _) => Some h
  | _ => None
  end.

(** proximity/proximity.go:153: [(\d+\.\d+)\s+(\d+\.\d+)] *)
Definition decimal : re := Seq (Plus is_digit) (Seq (Lit ".") (Plus is_digit)).
Definition pat_point : re := Seq (Group decimal) (Seq (Plus is_space) (Group decimal)).

Section Float.
(** [strconv.ParseFloat(s, 64)]; [None] is an error. *)
Context {F : Type} (ParseFloat : string -> option F).

(** proximity/proximity.go:156-173: the loop over the matches; the first error
    ends it. *)
Fixpoint points (ms : list (list string)) : option (list (F * F)) :=
  match ms with
  | [] => Some []
  | [a; b] :: ms' =>
      match ParseFloat a, ParseFloat b with
      | Some x, Some y => option_map (cons (x, y)) (points ms')
      | _, _ => None
      end
  | _ :: ms' => points ms'
  end.

(** proximity/proximity.go:153-175 *)
Definition parseBoundary (output : string) : option (list (F * F)) :=
  points (find_all pat_point output).

(** [strings.Fields] for ASCII text: the maximal runs of other bytes than white
    space.  [cur] is the run being read. *)
Definition is_field_space (c : ascii) : bool := between 9 13 c || (code c =? 32).
Fixpoint fields_go (cur : string) (s : string) : list string :=
  match s with
  | EmptyString => match cur with EmptyString => [] | _ => [cur] end
  | String c s' =>
      if is_field_space c then
        match cur with EmptyString => fields_go "" s' | _ => cur :: fields_go "" s' end
      else fields_go (cur ++ String c "") s'
  end.
Definition Fields (s : string) : list string := fields_go "" s.

(** proximity/proximity.go:127-142 *)
Definition parseLatLng (output : string) : option (F * F) :=
  match Fields output with
  | a :: b :: _ =>
      match ParseFloat a with
      | None => None
      | Some x => match ParseFloat b with None => None | Some y => Some (x, y) end
      end
  | _ => None
  end.
End Float.

(** ** The file of cells *)

(** proximity/proximity.go:42-45, on the bit pattern of the float *)
Definition floatToHex (bits : Z) : string := FormatUint16 bits.

Definition newline : string := String (byte 10) "".

Section File.
(** [float64(float32(x))] on bit patterns *)
Variable to32 : Z -> Z.

(** proximity/proximity.go:55-70: the contents of the file; the boundary of a
    cell is not written. *)
Definition cell_line (useFloat32 : bool) (cell : Z * Z) : string :=
  let '(lat, lon) := cell in
  if useFloat32 then floatToHex (to32 lat) ++ " " ++ floatToHex (to32 lon) ++ newline
  else floatToHex lat ++ " " ++ floatToHex lon ++ newline.
Definition hex_cells (useFloat32 : bool) (cells : list (Z * Z)) : string :=
  String.concat "" (map (cell_line useFloat32) cells).
End File.

(** ** The closest vertex *)

Section Closest.
Context {D : Type} (lt : D -> D -> bool) (distance : D * D -> D).

(** proximity/proximity.go:213-220: one pass over the vertices *)
Definition closest_pass (d : D) (boundary : list (D * D)) : D :=
  fold_left (fun d p => let d' := distance p in if lt d' d then d' else d) boundary d.

(** proximity/proximity.go:198-227: [n] passes over the same boundary *)
Fixpoint closest (n : nat) (d : D) (boundary : list (D * D)) : D :=
  match n with O => d | S n' => closest n' (closest_pass d boundary) boundary end.
End Closest.
