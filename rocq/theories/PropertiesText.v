(** Properties C49 (hexadecimal floats), C50 (parsing the output of the H3 tools)
    and C51 (proximity). *)
From Coq Require Import ZArith Reals List Bool Ascii String.
From Flocq Require Import Core BinarySingleNaN.
From Verif Require Import Text TextFacts RegexFacts TextParse FileFacts Haversine Spec.
Import ListNotations.
Local Open Scope Z_scope.

(** ** C49 *)

(** The accepted strings are the non-empty hexadecimal numerals below [2^64]
    (or [2^32]), in either case, with any number of leading zeros; the result is
    the float with that bit pattern. *)
Theorem C49_hex_to_float s v :
  (HexToFloat s = inr v <-> s <> ""%string /\ hex_numeral s v /\ v < 2 ^ 64) /\
  (HexToFloat32 s = inr v <-> s <> ""%string /\ hex_numeral s v /\ v < 2 ^ 32).
Proof. split; [apply (hex_parse 64)|apply (hex_parse 32)]; Lia.lia. Qed.
Print Assumptions C49_hex_to_float.

Example C49_ex : HexToFloat "3FE623F7DA85E88F" = inr 0x3FE623F7DA85E88F /\
  HexToFloat "0003fe623F7da85E88f" = inr 0x3FE623F7DA85E88F /\
  HexToFloat32 "3F311FBF" = inr 0x3F311FBF /\
  HexToFloat "" = inl ErrSyntax /\ HexToFloat "0x12" = inl ErrSyntax /\
  HexToFloat "12_34" = inl ErrSyntax /\ HexToFloat "10000000000000000" = inl ErrRange /\
  HexToFloat32 "100000000" = inl ErrRange /\
  hex_numeral "3f" 63 /\ ~ hex_numeral "3g" 64.
Proof.
  do 8 (split; [vm_compute; reflexivity|]). split.
  - apply (num_cons hexd 16 "3" 3 "f" 15); [split; [discriminate|left; reflexivity]|].
    apply (num_cons hexd 16 "f" 15 "" 0); [split; [discriminate|left; reflexivity]|constructor].
  - intros H. assert (Hp : HexToFloat "3g" = inr 64).
    { apply C49_hex_to_float. split; [discriminate|]. split; [exact H|reflexivity]. }
    discriminate Hp.
Qed.

(** A numeral that is too large is reported as out of range. *)
Theorem C49_range s v : hex_numeral s v ->
  (2 ^ 64 <= v -> HexToFloat s = inl ErrRange) /\ (2 ^ 32 <= v -> HexToFloat32 s = inl ErrRange).
Proof.
  intros H. split; intros Hv; [apply (hex_parse_range 64) with v|apply (hex_parse_range 32) with v];
    (exact H || exact Hv || Lia.lia).
Qed.
Print Assumptions C49_range.

(** Writing a float and reading it back gives the same bit pattern, and no
    shorter string does. *)
Theorem C49_roundtrip v s : 0 <= v < 2 ^ 64 ->
  HexToFloat (floatToHex v) = inr v /\
  (HexToFloat s = inr v -> len (floatToHex v) <= len s).
Proof. intros Hv. split; [apply hex_roundtrip, Hv|apply hex_shortest, Hv]. Qed.
Print Assumptions C49_roundtrip.

(** The file of cells contains the patterns in order, rounded to single
    precision if asked for. *)
Theorem C49_file to32 useFloat32 cells :
  Forall (fun c => 0 <= written to32 useFloat32 (fst c) < 2 ^ 64 /\
                   0 <= written to32 useFloat32 (snd c) < 2 ^ 64) cells ->
  map HexToFloat (Fields (hex_cells to32 useFloat32 cells)) =
  flat_map (fun c => [inr (written to32 useFloat32 (fst c)); inr (written to32 useFloat32 (snd c))]) cells.
Proof. exact (file_fields to32 useFloat32 cells). Qed.
Print Assumptions C49_file.

Example C49_file_ex :
  hex_cells (fun v => v) false [(0x4044583696BA0D3F, 0xC05282D82BD3C361); (0, 1)] =
  ("4044583696ba0d3f c05282d82bd3c361" ++ newline ++ "0 1" ++ newline)%string.
Proof. vm_compute. reflexivity. Qed.

(** With [useFloat32] the strings are still those of doubles: for every non-zero
    coordinate the single-precision reader rejects what was written. *)
Theorem C49_float32_file q (g : fmt 8 23) : 0 < q < 2 ^ 64 ->
  B2R (of_bits 11 52 q) = B2R g -> B2R g <> 0%R ->
  HexToFloat32 (floatToHex q) = inl ErrRange.
Proof. exact (float32_too_big q g). Qed.
Print Assumptions C49_float32_file.

(** 40.5, which is a single-precision number. *)
Theorem C49_float32_file_refuted : exists q (g : fmt 8 23), 0 < q < 2 ^ 64 /\
  B2R (of_bits 11 52 q) = B2R g /\ B2R g <> 0%R /\
  HexToFloat32 (floatToHex q) <> inr 0x42220000 /\ of_bits 8 23 0x42220000 = g.
Proof.
  exists 0x4044400000000000, (of_bits 8 23 0x42220000).
  assert (H1 : B2R (of_bits 11 52 0x4044400000000000) = (81 / 2)%R).
  { rewrite <- SF2R_B2SF. replace (B2SF _) with (SpecFloat.S754_finite false 5699868278390784 (-47))
      by (vm_compute; reflexivity). unfold SF2R, F2R. cbn. Lra.lra. }
  assert (H2 : B2R (of_bits 8 23 0x42220000) = (81 / 2)%R).
  { rewrite <- SF2R_B2SF. replace (B2SF _) with (SpecFloat.S754_finite false 10616832 (-18))
      by (vm_compute; reflexivity). unfold SF2R, F2R. cbn. Lra.lra. }
  split; [vm_compute; split; reflexivity|]. split; [rewrite H1, H2; reflexivity|].
  split; [rewrite H2; Lra.lra|]. split; [vm_compute; discriminate|reflexivity].
Qed.
Print Assumptions C49_float32_file_refuted.

(** [StrToIntSlice]: the bytes; from hexadecimal, the longest prefix of whole
    bytes that can be decoded. *)
Theorem C49_slice s l :
  (StrToIntSlice s true = l <->
   exists p t, s = (p ++ t)%string /\ hex_bytes p l /\
     forall a b u x y, t = String a (String b u) -> ~ (hexd a x /\ hexd b y)) /\
  StrToIntSlice s false = map (fun c => Z.of_N (N_of_ascii c)) (list_ascii_of_string s) /\
  Forall (fun x => 0 <= x < 256) (StrToIntSlice s true) /\
  Forall (fun x => 0 <= x < 256) (StrToIntSlice s false).
Proof.
  split; [apply decode_spec|]. split; [|split; apply slice_bytes].
  unfold StrToIntSlice. induction s as [|c s IH]; [reflexivity|]. cbn [bytes list_ascii_of_string map].
  rewrite IH. reflexivity.
Qed.
Print Assumptions C49_slice.

Example C49_slice_ex : StrToIntSlice "12aBff" true = [0x12; 0xAB; 0xFF] /\
  StrToIntSlice "12aB" false = [49; 50; 97; 66].
Proof. split; reflexivity. Qed.

(** Malformed input is cut off without an error, so different inputs give the
    same slice. *)
Theorem C49_slice_error_refuted : exists s t, s <> t /\
  StrToIntSlice s true = StrToIntSlice t true /\ StrToIntSlice s true <> [].
Proof. exists "12zz34"%string, "12"%string. split; [discriminate|]. split; [reflexivity|discriminate]. Qed.
Print Assumptions C49_slice_error_refuted.

(** ** C50 *)

(** The matcher: a result is a match, and no match starts further to the left;
    without a result there is none. *)
Theorem C50_leftmost r s :
  (forall g t, find r s = Some (g, t) ->
     exists pre w, s = (pre ++ w ++ t)%string /\ matches r w g /\
       forall pre' w' t' g', s = (pre' ++ w' ++ t')%string -> matches r w' g' ->
         (String.length pre <= String.length pre')%nat) /\
  (find r s = None <-> forall pre w t g, s = (pre ++ w ++ t)%string -> ~ matches r w g).
Proof. split; [exact (find_some r s)|exact (find_none r s)]. Qed.
Print Assumptions C50_leftmost.

(** Coordinates are read back exactly; beyond the largest [int] they are
    clamped without an error. *)
Theorem C50_ijk pre i j k post : no_I pre = true -> stops is_digit post = true ->
  0 <= i < 10 ^ 64 -> 0 <= j < 10 ^ 64 -> 0 <= k < 10 ^ 64 ->
  parseIJK (pre ++ "I: " ++ Itoa i ++ ", J: " ++ Itoa j ++ ", K: " ++ Itoa k ++ post) =
  Some (Z.min i (2 ^ 63 - 1), Z.min j (2 ^ 63 - 1), Z.min k (2 ^ 63 - 1)).
Proof. exact (ijk_parsed pre i j k post). Qed.
Print Assumptions C50_ijk.

(** A negative or missing coordinate is an error. *)
Theorem C50_ijk_rejected pre s : no_I pre = true -> no_I s = true -> stops is_digit s = true ->
  parseIJK (pre ++ "I: " ++ s) = None.
Proof. exact (ijk_rejected pre s). Qed.
Print Assumptions C50_ijk_rejected.

(** What [Itoa] prints is the decimal numeral. *)
Theorem C50_itoa v : 0 <= v < 10 ^ 64 -> dec_numeral (Itoa v) v /\ Itoa v <> ""%string.
Proof.
  intros Hv. split; [apply dec_format, Hv|]. intros He. pose proof (itoa_run v Hv) as H.
  rewrite He in H. discriminate.
Qed.
Print Assumptions C50_itoa.

Example C50_ijk_ex :
  parseIJK ("face 2, I: 0, J: 2620, K: 17023" ++ newline) = Some (0, 2620, 17023) /\
  parseIJK "I: -1, J: 0, K: 0" = None /\ parseIJK "I: 1, J: 2" = None /\
  no_I "face 2, " = true.
Proof. repeat split. Qed.

Theorem C50_index pre h post : all (fun c => negb (Ascii.eqb "-" c)) pre = true ->
  run_of is_word h = true -> stops is_word post = true ->
  parseIndex (pre ++ "--- " ++ h ++ post) = Some h.
Proof. exact (index_parsed pre h post). Qed.
Print Assumptions C50_index.

Example C50_index_ex : parseIndex ("cell --- 832834fffffffff" ++ newline) = Some "832834fffffffff"%string.
Proof. reflexivity. Qed.

(** The boundary: numbers separated by white space.  The pattern allows no sign,
    so a number with a sign is never the second of a pair, and the sign of the
    first is not part of the match. *)
Theorem C50_boundary {F} (ParseFloat : string -> option F) (f : number -> F) pre l post :
  all not_digit pre = true -> wellprinted l -> plain post ->
  (forall t, In t (map snd l) -> ParseFloat (magnitude t) = Some (f t)) ->
  parseBoundary ParseFloat (pre ++ render l post) =
  Some (map (fun tu => (f (fst tu), f (snd tu))) (pair_up (map snd l))).
Proof.
  intros Hpre Hl Hp Hf. unfold parseBoundary. rewrite boundary_groups by assumption.
  apply points_map. intros t u Hin.
  destruct (pair_up_in (List.length (map snd l)) (map snd l) t u (le_n _) Hin) as [Ht Hu].
  split; apply Hf; assumption.
Qed.
Print Assumptions C50_boundary.

(** Hence, for a list of vertices (latitude, longitude): *)
Theorem C50_quadrants (ps : list (number * number)) :
  (** longitudes not negative: every vertex is read, with the latitude's sign
      dropped (the parser only sees the magnitudes) *)
  (Forall (fun p => neg (snd p) = false) ps -> pair_up (flat ps) = ps) /\
  (** north-west: each longitude is taken for a latitude, and paired with the
      latitude of the next vertex *)
  (Forall (fun p => neg (fst p) = false /\ neg (snd p) = true) ps ->
     pair_up (flat ps) = shifted ps) /\
  (** south-west: nothing is read *)
  (Forall (fun p => neg (fst p) = true /\ neg (snd p) = true) ps -> pair_up (flat ps) = []).
Proof.
  split; [apply pair_up_north_east|]. split; [apply pair_up_north_west|].
  intros H. apply pair_up_south_west. unfold flat. apply Forall_flat_map.
  apply (Forall_impl _ (P:=fun p => neg (fst p) = true /\ neg (snd p) = true)); [|exact H].
  intros p [H1 H2]. repeat constructor; assumption.
Qed.
Print Assumptions C50_quadrants.

(** A cell near New York (made-up digits): three vertices become two points, with
    latitude and longitude exchanged and the sign lost. *)
Definition sample : string :=
  ("832a10fffffffff" ++ newline ++ "{" ++ newline ++
   "   40.1 -74.1" ++ newline ++ "   40.2 -74.2" ++ newline ++ "   40.3 -74.3" ++ newline ++
   "}" ++ newline)%string.
Theorem C50_boundary_refuted :
  parseBoundary Some sample = Some [("74.1", "40.2"); ("74.2", "40.3")]%string /\
  parseBoundary Some "   -33.1 151.2   -33.2 151.3" =
    Some [("33.1", "151.2"); ("33.2", "151.3")]%string /\
  parseBoundary Some "   -33.1 -70.2   -33.2 -70.3" = Some [].
Proof. repeat split; vm_compute; reflexivity. Qed.
Print Assumptions C50_boundary_refuted.

Example C50_boundary_ex :
  let n s a b := mkN s a b in
  let l := [("   ", n false "40" "1"); (" ", n false "29" "5");
            (newline ++ "   ", n false "40" "2"); (" ", n false "29" "6")]%string in
  wellprinted l /\ plain (newline ++ "}" ++ newline) /\
  parseBoundary Some ("{" ++ newline ++ render l (newline ++ "}" ++ newline)) =
    Some [("40.1", "29.5"); ("40.2", "29.6")]%string.
Proof.
  cbv zeta. split; [repeat constructor|]. split; [split; reflexivity|]. vm_compute. reflexivity.
Qed.

(** [strings.Fields]: the words of a text, whatever white space is around them. *)
Theorem C50_fields pre l w : all is_field_space pre = true ->
  Forall (fun ws => run_of not_space (fst ws) = true /\ run_of is_field_space (snd ws) = true) l ->
  Fields (pre ++ spaced l) = map fst l /\
  (run_of not_space w = true -> Fields (pre ++ spaced l ++ w) = map fst l ++ [w]).
Proof. exact (fields_text pre l w). Qed.
Print Assumptions C50_fields.

(** The centre of a cell is read with its signs, whatever white space is around
    the two numbers and whatever follows them. *)
Theorem C50_centre {F} (ParseFloat : string -> option F) pre a mid b x y post :
  all is_field_space pre = true -> run_of not_space a = true -> run_of is_field_space mid = true -> run_of not_space b = true ->
  post = ""%string \/ (exists c s, is_field_space c = true /\ post = String c s) ->
  ParseFloat a = Some x -> ParseFloat b = Some y ->
  parseLatLng ParseFloat (pre ++ a ++ mid ++ b ++ post) = Some (x, y).
Proof.
  intros Hp Ha Hm Hb Hs Hx Hy. unfold parseLatLng, Fields.
  rewrite fields_skip by exact Hp. rewrite fields_next by assumption.
  destruct Hs as [->|(c & s & Hc & ->)].
  - rewrite app_nil, fields_last, Hx, Hy by exact Hb. reflexivity.
  - rewrite fields_field by assumption. rewrite Hx, Hy. reflexivity.
Qed.
Print Assumptions C50_centre.

(** Fewer than two words are an error. *)
Theorem C50_centre_missing {F} (ParseFloat : string -> option F) pre a post :
  all is_field_space pre = true -> all is_field_space post = true -> run_of not_space a = true ->
  parseLatLng ParseFloat pre = None /\ parseLatLng ParseFloat (pre ++ a ++ post) = None.
Proof.
  intros Hp Hs Ha. unfold parseLatLng, Fields. rewrite <- (app_nil pre) at 1. rewrite !fields_skip by exact Hp.
  split; [reflexivity|]. destruct post as [|c post].
  - rewrite app_nil, fields_last by exact Ha. reflexivity.
  - rewrite <- (app_nil (String c post)), fields_next by assumption. reflexivity.
Qed.
Print Assumptions C50_centre_missing.

Example C50_centre_ex :
  parseLatLng Some ("  40.1   -74.1" ++ newline ++ newline) = Some ("40.1", "-74.1")%string /\
  run_of not_space "-74.1" = true /\ run_of is_field_space "   " = true /\ all is_field_space "  " = true /\
  Fields (" " ++ spaced [("a", "  "); ("b", newline)])%string = ["a"; "b"]%string /\
  parseLatLng Some ("  40.1  " ++ newline) = None.
Proof. repeat split; vm_compute; reflexivity. Qed.

(** ** C51 *)

(** In exact arithmetic the haversine formula is the great-circle distance. *)
Theorem C51_great_circle lat1 lon1 lat2 lon2 :
  OldHaversine lat1 lon1 lat2 lon2 = great_circle lat1 lon1 lat2 lon2.
Proof. exact (haversine_great_circle lat1 lon1 lat2 lon2). Qed.
Print Assumptions C51_great_circle.

(** From the equator to the pole. *)
Example C51_ex lon : OldHaversine 0 0 90 lon = (RadiusOfEarth * (PI / 2))%R.
Proof.
  rewrite C51_great_circle. unfold great_circle. f_equal.
  replace (dot 0 0 90 lon) with 0%R; [apply acos_0|].
  unfold dot, px, py, pz.
  replace (90 * PI / 180)%R with (PI / 2)%R by field. rewrite cos_PI2.
  replace (0 * PI / 180)%R with 0%R by field. rewrite sin_0. ring.
Qed.

Theorem C51_metric lat1 lon1 lat2 lon2 lat3 lon3 :
  let d := OldHaversine in
  (0 <= d lat1 lon1 lat2 lon2 <= RadiusOfEarth * PI)%R /\
  d lat1 lon1 lat2 lon2 = d lat2 lon2 lat1 lon1 /\
  (d lat1 lon1 lat2 lon2 = 0%R <->
   px lat1 lon1 = px lat2 lon2 /\ py lat1 lon1 = py lat2 lon2 /\ pz lat1 lon1 = pz lat2 lon2) /\
  (d lat1 lon1 lat3 lon3 <= d lat1 lon1 lat2 lon2 + d lat2 lon2 lat3 lon3)%R.
Proof.
  cbv zeta. rewrite !haversine_great_circle. split; [apply great_circle_range|].
  split; [apply great_circle_sym|]. split; [apply great_circle_zero|apply great_circle_triangle].
Qed.
Print Assumptions C51_metric.

(** The loop of [main] returns the least of the distances and the initial value,
    in double arithmetic and whatever the distance function returns (NaN
    included), after one pass or more. *)
Theorem C51_closest (distance : fmt 11 52 * fmt 11 52 -> fmt 11 52) boundary n d0 :
  let r := closest (ieee_lt 11 52) distance (S n) d0 boundary in
  (r = d0 \/ (ieee_lt 11 52 r d0 = true /\ exists p, In p boundary /\ r = distance p)) /\
  forall p, In p boundary -> ieee_lt 11 52 (distance p) r = false.
Proof.
  cbv zeta. exact (closest_min (ieee_lt 11 52) distance ieee_lt_trans boundary n d0 ieee_lt_irrefl).
Qed.
Print Assumptions C51_closest.

Example C51_closest_ex :
  let fl m := of_bits 11 52 m in
  B2SF (closest (ieee_lt 11 52) fst 20 (fl 0x7FEFFFFFFFFFFFFF)
          [(fl 0x4008000000000000, fl 0); (fl 0x3FF0000000000000, fl 0); (fl 0x7FF8000000000000, fl 0);
           (fl 0x4000000000000000, fl 0)]) = B2SF (fl 0x3FF0000000000000) /\
  B2SF (closest (ieee_lt 11 52) fst 20 (fl 0x7FEFFFFFFFFFFFFF) []) = B2SF (fl 0x7FEFFFFFFFFFFFFF).
Proof. split; vm_compute; reflexivity. Qed.

(** Taking vertices for the boundary overestimates the distance by at most half
    an edge... *)
Theorem C51_vertices lat1 lon1 lat2 lon2 blat blon lat lon :
  on_edge lat1 lon1 lat2 lon2 blat blon ->
  (Rmin (OldHaversine lat lon lat1 lon1) (OldHaversine lat lon lat2 lon2) <=
   OldHaversine lat lon blat blon + OldHaversine lat1 lon1 lat2 lon2 / 2)%R.
Proof. rewrite !haversine_great_circle. apply vertex_error. Qed.
Print Assumptions C51_vertices.

(** ... and half an edge is reached: from the middle of an edge on the equator,
    both ends are that far away. *)
Theorem C51_boundary_refuted : exists lat1 lon1 lat2 lon2 blat blon lat lon,
  on_edge lat1 lon1 lat2 lon2 blat blon /\
  OldHaversine lat lon blat blon = 0%R /\
  (0 < OldHaversine lat1 lon1 lat2 lon2)%R /\
  Rmin (OldHaversine lat lon lat1 lon1) (OldHaversine lat lon lat2 lon2) =
    (OldHaversine lat1 lon1 lat2 lon2 / 2)%R.
Proof.
  exists 0%R, (-45)%R, 0%R, 45%R, 0%R, 0%R, 0%R, 0%R. unfold on_edge.
  assert (Hd : forall a b, dot 0 a 0 b = cos ((b - a) * PI / 180)).
  { intros a b. unfold dot, px, py, pz. replace (0 * PI / 180)%R with 0%R by field.
    rewrite cos_0, sin_0. replace ((b - a) * PI / 180)%R with (b * PI / 180 - a * PI / 180)%R by field.
    rewrite cos_minus. ring. }
  pose proof PI_RGT_0 as Hpi.
  rewrite !haversine_great_circle. unfold great_circle. rewrite !Hd.
  replace ((0 - -45) * PI / 180)%R with (PI / 4)%R by field.
  replace ((45 - 0) * PI / 180)%R with (PI / 4)%R by field.
  replace ((45 - -45) * PI / 180)%R with (PI / 2)%R by field.
  replace ((0 - 0) * PI / 180)%R with 0%R by field.
  replace ((-45 - 0) * PI / 180)%R with (- (PI / 4))%R by field. rewrite cos_neg.
  rewrite !acos_cos by Lra.lra. rewrite Rmin_left by apply Rle_refl. unfold RadiusOfEarth.
  split; [Lra.lra|]. split; [ring|]. split; Lra.lra.
Qed.
Print Assumptions C51_boundary_refuted.
