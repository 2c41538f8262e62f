(** time.Time as used by data/token.go: an instant, a zone offset, the RFC 3339 text that
    json.Marshal produces for it, and the parser json.Unmarshal applies.

    Go's time package is outside the repository and re-specified.  Simplifications: the
    monotonic clock reading is ignored (it is dropped by marshalling anyway, and assumed to agree
    with the wall clock); zone offsets are whole minutes; the parser accepts exactly the
    RFC 3339 shape with a zone offset below 24 hours (Go 1.19 also accepts one-digit hours, a
    comma before the fraction and larger offsets). *)
From Coq Require Import ZArith.
From Verif Require Import Bytes Json.
Local Open Scope bool_scope.
Local Open Scope Z_scope.

Record gtime := mkT { t_sec : Z; t_ns : Z; t_off : Z (* minutes east of UTC *) }.
Definition time_wf (t : gtime) : Prop := 0 <= t_ns t < 1000000000 /\ -1440 < t_off t < 1440.

(** The zero time.Time: January 1, year 1, 00:00:00 UTC. *)
Definition time_zero : gtime := mkT (-62135596800) 0 0.

(** Time.Before. *)
Definition time_before (a b : gtime) : bool :=
  (t_sec a <? t_sec b) || ((t_sec a =? t_sec b) && (t_ns a <? t_ns b)).
(** Time.Add of whole seconds. *)
Definition time_add (t : gtime) (s : Z) : gtime := mkT (t_sec t + s) (t_ns t) (t_off t).
(** Time.Unix. *)
Definition time_unix (t : gtime) : Z := t_sec t.

(** Proleptic Gregorian calendar; day 0 is 1970-01-01. *)
Definition civil_from_days (z0 : Z) : Z * Z * Z :=
  let z := z0 + 719468 in
  let era := z / 146097 in
  let doe := z mod 146097 in
  let yoe := (doe - doe / 1460 + doe / 36524 - doe / 146096) / 365 in
  let doy := doe - (365 * yoe + yoe / 4 - yoe / 100) in
  let mp := (5 * doy + 2) / 153 in
  let d := doy - (153 * mp + 2) / 5 + 1 in
  let m := if mp <? 10 then mp + 3 else mp - 9 in
  let y := yoe + era * 400 + (if m <=? 2 then 1 else 0) in
  (y, m, d).
Definition days_from_civil (y0 m d : Z) : Z :=
  let y := if m <=? 2 then y0 - 1 else y0 in
  let era := y / 400 in
  let yoe := y mod 400 in
  let mp := if m <=? 2 then m + 9 else m - 3 in
  let doy := (153 * mp + 2) / 5 + d - 1 in
  let doe := yoe * 365 + yoe / 4 - yoe / 100 + doy in
  era * 146097 + doe - 719468.
Definition is_leap (y : Z) : bool :=
  (y mod 4 =? 0) && (negb (y mod 100 =? 0) || (y mod 400 =? 0)).
Definition days_in (y m : Z) : Z :=
  if m =? 2 then (if is_leap y then 29 else 28)
  else if (m =? 4) || (m =? 6) || (m =? 9) || (m =? 11) then 30 else 31.

(** Zero-padded decimal numbers. *)
Definition digit (n : Z) : byte := Nb (48 + Z.to_N n).
Fixpoint pad (k : nat) (n : Z) : bytes :=
  match k with O => [] | S k' => pad k' (n / 10) ++ [digit (n mod 10)] end.
Fixpoint undigits (l : bytes) (acc : Z) : option Z :=
  match l with
  | [] => Some acc
  | b :: t => match dec_digit b with Some d => undigits t (acc * 10 + Z.of_N d) | None => None end
  end.

(** Dropping the trailing zeros of the nanosecond digits. *)
Fixpoint strip0 (l : bytes) : bytes :=
  match l with
  | [] => []
  | b :: t => match strip0 t with
              | [] => if byte_eqb b x30 then [] else [b]
              | t' => b :: t'
              end
  end.
Definition frac_text (ns : Z) : bytes :=
  match strip0 (pad 9 ns) with [] => [] | ds => str "." ++ ds end.
Definition zone_text (off : Z) : bytes :=
  if off =? 0 then str "Z"
  else (if off <? 0 then str "-" else str "+") ++ pad 2 (Z.abs off / 60) ++ str ":" ++ pad 2 (Z.abs off mod 60).

(** Time.MarshalJSON without the quotes (layout RFC3339Nano): fails when the year does not
    have four digits. *)
Definition time_text (t : gtime) : option bytes :=
  let local := t_sec t + 60 * t_off t in
  let '(y, m, d) := civil_from_days (local / 86400) in
  let s := local mod 86400 in
  if (0 <=? y) && (y <=? 9999) then
    Some (pad 4 y ++ str "-" ++ pad 2 m ++ str "-" ++ pad 2 d ++ str "T" ++
          pad 2 (s / 3600) ++ str ":" ++ pad 2 (s / 60 mod 60) ++ str ":" ++ pad 2 (s mod 60) ++
          frac_text (t_ns t) ++ zone_text (t_off t))
  else None.

(** Leading digits. *)
Fixpoint span_digits (l : bytes) : bytes * bytes :=
  match l with
  | [] => ([], [])
  | b :: t => match dec_digit b with
              | Some _ => let '(d, r) := span_digits t in (b :: d, r)
              | None => ([], l)
              end
  end.
(** Fraction of a second: at most nine digits count. *)
Definition frac_parse (l : bytes) : option (Z * bytes) :=
  match l with
  | b :: t =>
      if byte_eqb b x2e then
        let '(ds, r) := span_digits t in
        let ds9 := firstn 9 ds in
        match ds, undigits ds9 0 with
        | _ :: _, Some n => Some (n * 10 ^ (9 - Z.of_nat (length ds9)), r)
        | _, _ => None
        end
      else Some (0, l)
  | [] => Some (0, l)
  end.
Definition zone_parse (l : bytes) : option Z :=
  match l with
  | [z] => if byte_eqb z x5a then Some 0 else None
  | [s; h1; h2; c; m1; m2] =>
      match undigits [h1; h2] 0, undigits [m1; m2] 0 with
      | Some h, Some m =>
          if negb (byte_eqb c x3a) || (1440 <=? h * 60 + m) then None
          else if byte_eqb s x2b then Some (h * 60 + m)
          else if byte_eqb s x2d then Some (- (h * 60 + m)) else None
      | _, _ => None
      end
  | _ => None
  end.
(** Time.UnmarshalJSON on the text between the quotes. *)
Definition time_parse (l : bytes) : option gtime :=
  match l with
  | y1 :: y2 :: y3 :: y4 :: s1 :: m1 :: m2 :: s2 :: d1 :: d2 :: s3 :: h1 :: h2 :: s4 :: n1 :: n2 :: s5 :: c1 :: c2 :: rest =>
      match undigits [y1; y2; y3; y4] 0, undigits [m1; m2] 0, undigits [d1; d2] 0,
            undigits [h1; h2] 0, undigits [n1; n2] 0, undigits [c1; c2] 0, frac_parse rest with
      | Some y, Some m, Some d, Some h, Some n, Some c, Some (ns, zone) =>
          match zone_parse zone with
          | Some off =>
              if byte_eqb s1 x2d && byte_eqb s2 x2d && byte_eqb s3 x54 && byte_eqb s4 x3a && byte_eqb s5 x3a
                 && (1 <=? m) && (m <=? 12) && (1 <=? d) && (d <=? days_in y m)
                 && (h <? 24) && (n <? 60) && (c <? 60)
              then Some (mkT (days_from_civil y m d * 86400 + h * 3600 + n * 60 + c - 60 * off) ns off)
              else None
          | None => None
          end
      | _, _, _, _, _, _, _ => None
      end
  | _ => None
  end.
