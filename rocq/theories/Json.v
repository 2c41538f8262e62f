(** JSON as produced and consumed by github.com/json-iterator/go with ConfigDefault
    (json.Marshal / json.Unmarshal, used in crypto/cryptor.go, crypto/tagger.go,
    utility.go, id/standalone.go, index/index.go and data/token.go).

    json-iterator is outside the repository; its behaviour on the types the library stores
    is re-specified.  Object keys are matched ignoring ASCII case and the last duplicate
    wins.  Simplifications: json-iterator compares 64-bit hashes of the lower-cased keys,
    the model compares the keys; control characters inside strings are rejected; NUL
    after a value is not treated as end of input. *)
From Verif Require Import Bytes Base64.
Local Open Scope bool_scope.
Local Open Scope N_scope.

(** ** UTF-8 *)

(** A string is read as a sequence of well-formed UTF-8 characters and of bytes
    that do not start one (unicode/utf8.DecodeRuneInString returning RuneError, width 1). *)
Inductive rune : Type :=
| RAscii (b : byte)
| RMulti (c : bytes)     (* a well-formed 2-, 3- or 4-byte encoding *)
| RBad (b : byte).

Definition inr (lo hi : N) (b : byte) : bool := (lo <=? bN b) && (bN b <=? hi).

Fixpoint runes (s : bytes) : list rune :=
  match s with
  | [] => []
  | b0 :: t0 =>
      if bN b0 <? 128 then RAscii b0 :: runes t0
      else
        match t0 with
        | [] => [RBad b0]
        | b1 :: t1 =>
            if inr 194 223 b0 && inr 128 191 b1 then RMulti [b0; b1] :: runes t1
            else
              match t1 with
              | [] => RBad b0 :: runes t0
              | b2 :: t2 =>
                  if ((inr 224 224 b0 && inr 160 191 b1) || (inr 225 236 b0 && inr 128 191 b1)
                      || (inr 237 237 b0 && inr 128 159 b1) || (inr 238 239 b0 && inr 128 191 b1))
                     && inr 128 191 b2
                  then RMulti [b0; b1; b2] :: runes t2
                  else
                    match t2 with
                    | [] => RBad b0 :: runes t0
                    | b3 :: t3 =>
                        if ((inr 240 240 b0 && inr 144 191 b1) || (inr 241 243 b0 && inr 128 191 b1)
                            || (inr 244 244 b0 && inr 128 143 b1))
                           && inr 128 191 b2 && inr 128 191 b3
                        then RMulti [b0; b1; b2; b3] :: runes t3
                        else RBad b0 :: runes t0
                    end
              end
        end
  end.

Definition rune_ok (r : rune) : bool := match r with RBad _ => false | _ => true end.
(** utf8.ValidString *)
Definition valid_utf8 (s : bytes) : bool := forallb rune_ok (runes s).

(** Replacement character U+FFFD. *)
Definition fffd : bytes := [xef; xbf; xbd].
Definition rune_sanitize (r : rune) : bytes :=
  match r with RAscii b => [b] | RMulti c => c | RBad _ => fffd end.
(** What a Go string becomes when it passes through JSON. *)
Definition sanitize (s : bytes) : bytes := concat (map rune_sanitize (runes s)).

(** ** Strings *)

Definition hexdigit (n : N) : byte := Nb (if n <? 10 then 48 + n else 87 + n).

(** stream_str.go writeStringSlowPathWithHTMLEscaped: the escaping of one character. *)
Definition esc_rune (r : rune) : bytes :=
  match r with
  | RAscii b =>
      if byte_eqb b x5c then [x5c; x5c]             (* two backslashes *)
      else if byte_eqb b x22 then [x5c; x22]        (* backslash, quote *)
      else if byte_eqb b x0a then [x5c; x6e]        (* \n *)
      else if byte_eqb b x0d then [x5c; x72]        (* \r *)
      else if byte_eqb b x09 then [x5c; x74]        (* \t *)
      else if (bN b <? 32) || byte_eqb b x3c || byte_eqb b x3e || byte_eqb b x26
           then [x5c; x75; x30; x30; hexdigit (bN b / 16); hexdigit (bN b mod 16)]
           else [b]
  | RBad _ => [x5c; x75; x66; x66; x66; x64]
  | RMulti c =>
      if bytes_eqb c [xe2; x80; xa8] then [x5c; x75; x32; x30; x32; x38]
      else if bytes_eqb c [xe2; x80; xa9] then [x5c; x75; x32; x30; x32; x39]
      else c
  end.
Definition quote (s : bytes) : bytes := x22 :: concat (map esc_rune (runes s)) ++ [x22].

Definition unhexdigit (b : byte) : option N :=
  let n := bN b in
  if (48 <=? n) && (n <=? 57) then Some (n - 48)
  else if (97 <=? n) && (n <=? 102) then Some (n - 87)
  else if (65 <=? n) && (n <=? 70) then Some (n - 55) else None.
Definition unhex4 (a b c d : byte) : option N :=
  match unhexdigit a, unhexdigit b, unhexdigit c, unhexdigit d with
  | Some p, Some q, Some r, Some s => Some (((p * 16 + q) * 16 + r) * 16 + s)
  | _, _, _, _ => None
  end.
(** appendRune: UTF-8 encoding of a code point; surrogates become U+FFFD. *)
Definition utf8_encode (r : N) : bytes :=
  if r <? 128 then [Nb r]
  else if r <? 2048 then [Nb (192 + r / 64); Nb (128 + r mod 64)]
  else if (55296 <=? r) && (r <=? 57343) then fffd
  else if r <? 65536 then [Nb (224 + r / 4096); Nb (128 + (r / 64) mod 64); Nb (128 + r mod 64)]
  else if r <? 1114112
       then [Nb (240 + r / 262144); Nb (128 + (r / 4096) mod 64); Nb (128 + (r / 64) mod 64); Nb (128 + r mod 64)]
       else fffd.

Definition ocons (h : bytes) (o : option (bytes * bytes)) : option (bytes * bytes) :=
  match o with Some (s, rest) => Some (h ++ s, rest) | None => None end.

(** Single-character escapes. *)
Definition unesc (e : byte) : option byte :=
  if byte_eqb e x22 then Some x22
  else if byte_eqb e x5c then Some x5c
  else if byte_eqb e x2f then Some x2f
  else if byte_eqb e x62 then Some x08
  else if byte_eqb e x66 then Some x0c
  else if byte_eqb e x6e then Some x0a
  else if byte_eqb e x72 then Some x0d
  else if byte_eqb e x74 then Some x09
  else None.
Definition is_high (r : N) : bool := (55296 <=? r) && (r <? 56320).
Definition is_low (r : N) : bool := (56320 <=? r) && (r <? 57344).

(** Reading a string body up to and including the closing quote (iter_str.go). *)
Fixpoint parse_str (l : bytes) : option (bytes * bytes) :=
  match l with
  | [] => None
  | b :: t =>
      if byte_eqb b x22 then Some ([], t)
      else if byte_eqb b x5c then
        match t with
        | [] => None
        | e :: t1 =>
            if byte_eqb e x75 then
              match t1 with
              | a :: b :: c :: d :: t' =>
                  match unhex4 a b c d with
                  | None => None
                  | Some r =>
                      if is_high r then
                        match t' with
                        | p :: q :: a' :: b' :: c' :: d' :: t'' =>
                            if byte_eqb p x5c && byte_eqb q x75 then
                              match unhex4 a' b' c' d' with
                              | None => None
                              | Some r2 =>
                                  if is_low r2
                                  then ocons (utf8_encode (65536 + (r - 55296) * 1024 + (r2 - 56320))) (parse_str t'')
                                  else ocons (utf8_encode r) (parse_str t')
                              end
                            else ocons (utf8_encode r) (parse_str t')
                        | _ => ocons (utf8_encode r) (parse_str t')
                        end
                      else ocons (utf8_encode r) (parse_str t')
                  end
              | _ => None
              end
            else
              match unesc e with
              | Some c => ocons [c] (parse_str t1)
              | None => None
              end
        end
      else if bN b <? 32 then None
      else ocons [b] (parse_str t)
  end.

(** ** Values *)
Inductive json : Type :=
| JNull
| JBool (b : bool)
| JNum (raw : bytes)
| JStr (s : bytes)
| JArr (l : list json)
| JObj (l : list (bytes * json)).

Fixpoint join (sep : bytes) (l : list bytes) : bytes :=
  match l with
  | [] => []
  | [x] => x
  | x :: t => x ++ sep ++ join sep t
  end.

Fixpoint print (j : json) : bytes :=
  match j with
  | JNull => str "null"
  | JBool true => str "true"
  | JBool false => str "false"
  | JNum raw => raw
  | JStr s => quote s
  | JArr l => str "[" ++ join (str ",") (map print l) ++ str "]"
  | JObj l => str "{" ++ join (str ",") (map (fun kv => quote (fst kv) ++ str ":" ++ print (snd kv)) l) ++ str "}"
  end.

Definition is_ws (b : byte) : bool :=
  byte_eqb b x20 || byte_eqb b x09 || byte_eqb b x0a || byte_eqb b x0d.
Fixpoint skip_ws (l : bytes) : bytes :=
  match l with
  | b :: t => if is_ws b then skip_ws t else l
  | [] => []
  end.
Definition is_num (b : byte) : bool :=
  inr 48 57 b || byte_eqb b x2b || byte_eqb b x2d || byte_eqb b x2e || byte_eqb b x65 || byte_eqb b x45.
Fixpoint span_num (l : bytes) : bytes * bytes :=
  match l with
  | b :: t => if is_num b then let '(n, r) := span_num t in (b :: n, r) else ([], l)
  | [] => ([], [])
  end.

(** Strips a literal prefix. *)
Fixpoint expect (p l : bytes) : option bytes :=
  match p, l with
  | [], _ => Some l
  | x :: p', y :: l' => if byte_eqb x y then expect p' l' else None
  | _, [] => None
  end.

(** Next token: white space skipped, then the first byte and the rest. *)
Definition token (l : bytes) : option (byte * bytes) :=
  match skip_ws l with [] => None | b :: t => Some (b, t) end.

Fixpoint parse_value (fuel : nat) (l : bytes) {struct fuel} : option (json * bytes) :=
  match fuel with
  | O => None
  | S f =>
      match token l with
      | None => None
      | Some (b, t) =>
          if byte_eqb b x22 then match parse_str t with Some (s, r) => Some (JStr s, r) | None => None end
          else if byte_eqb b x6e then match expect (str "ull") t with Some r => Some (JNull, r) | None => None end
          else if byte_eqb b x74 then match expect (str "rue") t with Some r => Some (JBool true, r) | None => None end
          else if byte_eqb b x66 then match expect (str "alse") t with Some r => Some (JBool false, r) | None => None end
          else if byte_eqb b x7b then
              match token t with
              | None => None
              | Some (c, r) =>
                  if byte_eqb c x7d then Some (JObj [], r)
                  else match parse_members f (c :: r) with Some (m, r') => Some (JObj m, r') | None => None end
              end
          else if byte_eqb b x5b then
              match token t with
              | None => None
              | Some (c, r) =>
                  if byte_eqb c x5d then Some (JArr [], r)
                  else match parse_elems f (c :: r) with Some (m, r') => Some (JArr m, r') | None => None end
              end
          else if is_num b then let '(n, r) := span_num (b :: t) in Some (JNum n, r)
          else None
      end
  end
with parse_members (fuel : nat) (l : bytes) {struct fuel} : option (list (bytes * json) * bytes) :=
  match fuel with
  | O => None
  | S f =>
      match token l with
      | None => None
      | Some (b, t) =>
          if negb (byte_eqb b x22) then None
          else
          match parse_str t with
          | None => None
          | Some (k, r1) =>
              match token r1 with
              | None => None
              | Some (c, r2) =>
                  if negb (byte_eqb c x3a) then None
                  else
                  match parse_value f r2 with
                  | None => None
                  | Some (v, r3) =>
                      match token r3 with
                      | None => None
                      | Some (d, r4) =>
                          if byte_eqb d x2c then
                            match parse_members f r4 with
                            | Some (m, r5) => Some ((k, v) :: m, r5)
                            | None => None
                            end
                          else if byte_eqb d x7d then Some ([(k, v)], r4)
                          else None
                      end
                  end
              end
          end
      end
  end
with parse_elems (fuel : nat) (l : bytes) {struct fuel} : option (list json * bytes) :=
  match fuel with
  | O => None
  | S f =>
      match parse_value f l with
      | None => None
      | Some (v, r) =>
          match token r with
          | None => None
          | Some (d, r') =>
              if byte_eqb d x2c then
                match parse_elems f r' with
                | Some (m, r'') => Some (v :: m, r'')
                | None => None
                end
              else if byte_eqb d x5d then Some ([v], r')
              else None
          end
      end
  end.

(** json.Unmarshal up to the typed part: one value, then only white space. *)
Definition json_parse (l : bytes) : option json :=
  match parse_value (S (length l)) l with
  | Some (v, r) => match skip_ws r with [] => Some v | _ => None end
  | None => None
  end.

(** ** Numbers *)
Fixpoint digits_loop (fuel : nat) (n : N) (acc : bytes) : bytes :=
  match fuel with
  | O => acc
  | S f => let acc' := Nb (48 + n mod 10) :: acc in
           if n / 10 =? 0 then acc' else digits_loop f (n / 10) acc'
  end.
(** strconv.FormatUint(n, 10) for uint64: at most 20 digits. *)
Definition dec_print (n : N) : bytes := digits_loop 20 n [].
Definition dec_digit (b : byte) : option N := if inr 48 57 b then Some (bN b - 48) else None.
Fixpoint dec_loop (l : bytes) (acc : N) : option N :=
  match l with
  | [] => Some acc
  | b :: t => match dec_digit b with Some d => dec_loop t (acc * 10 + d) | None => None end
  end.
(** iter.ReadUint64: no sign, no leading zero, no overflow. *)
Definition dec_parse (l : bytes) : option N :=
  match l with
  | [] => None
  | b :: t =>
      if byte_eqb b x30 && negb (Nat.eqb (length t) 0) then None
      else match dec_loop l 0 with
           | Some n => if n <? 2 ^ 64 then Some n else None
           | None => None
           end
  end.

(** ** Fields *)

(** reflect_struct_decoder.go: keys are compared after lower-casing ASCII letters. *)
Definition lower_byte (b : byte) : byte := if inr 65 90 b then Nb (bN b + 32) else b.
Definition lower (s : bytes) : bytes := map lower_byte s.

Fixpoint field (name : bytes) (l : list (bytes * json)) : option json :=
  match l with
  | [] => None
  | (k, v) :: t => match field name t with
                   | Some v' => Some v'
                   | None => if bytes_eqb (lower k) (lower name) then Some v else None
                   end
  end.

(** []byte: nil is null, otherwise a base64 string. *)
Definition jbytes (s : gslice) : json :=
  match s with None => JNull | Some b => JStr (b64std_encode b) end.
(** uint8 array elements (null leaves the zero value). *)
Definition dec_uint8 (j : json) : option byte :=
  match j with
  | JNull => Some x00
  | JNum r => match dec_parse r with Some n => if n <? 256 then Some (Nb n) else None | None => None end
  | _ => None
  end.
Fixpoint dec_uint8s (l : list json) : option bytes :=
  match l with
  | [] => Some []
  | j :: t => match dec_uint8 j, dec_uint8s t with Some b, Some r => Some (b :: r) | _, _ => None end
  end.
(** reflect_native.go base64Codec: null, a base64 string, or an array of numbers. *)
Definition dec_bytes (j : json) : option gslice :=
  match j with
  | JNull => Some None
  | JStr s => match b64std_decode s with Some b => Some (Some b) | None => None end
  | JArr l => match dec_uint8s l with Some b => Some (Some b) | None => None end
  | _ => None
  end.
Definition dec_string (j : json) : option bytes :=
  match j with JNull => Some [] | JStr s => Some s | _ => None end.
Definition dec_uint64 (j : json) : option N :=
  match j with JNull => Some 0 | JNum r => dec_parse r | _ => None end.

(** An absent field leaves the Go zero value. *)
Definition field_or {A} (dec : json -> option A) (zero : A) (name : bytes) (l : list (bytes * json)) : option A :=
  match field name l with None => Some zero | Some j => dec j end.
