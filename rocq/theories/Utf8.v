(** Go strings as bytes: the conversions between a string and its runes, and
    Parse and Join on byte strings.  A byte is an [N] below 256.

    Conversions happen at miniquery/miniquery.peg.go:465 ([]rune(p.Buffer)), 366
    (text = string(_buffer[begin:end])); the runtime's decoderune and encoderune
    are transcribed. *)
From Verif Require Import Base Node Tree Parse Build.

(** a continuation byte, runtime/utf8.go: locb <= b <= hicb *)
Definition contb (b : N) : bool := ((128 <=? b) && (b <=? 191))%N.

(** [[]rune(s)]: runtime decoderune, byte by byte.  [b & mask] is a remainder
    and [x << 6 | y], with y below 64, is 64 x + y.  A byte that begins no
    well-formed sequence gives U+FFFD and is skipped alone. *)
Fixpoint decode (b : list N) : list N :=
  match b with
  | [] => []
  | b0 :: r =>
      if (b0 <? 128)%N then b0 :: decode r
      else if ((192 <=? b0) && (b0 <? 224))%N then
        match r with
        | b1 :: r1 =>
            let c := (b0 mod 32 * 64 + b1 mod 64)%N in
            if contb b1 && (127 <? c)%N then c :: decode r1 else 65533%N :: decode r
        | [] => 65533%N :: decode r
        end
      else if ((224 <=? b0) && (b0 <? 240))%N then
        match r with
        | b1 :: b2 :: r2 =>
            let c := (b0 mod 16 * 4096 + b1 mod 64 * 64 + b2 mod 64)%N in
            if contb b1 && contb b2 && (2047 <? c)%N && negb ((55296 <=? c) && (c <=? 57343))%N
            then c :: decode r2 else 65533%N :: decode r
        | _ => 65533%N :: decode r
        end
      else if ((240 <=? b0) && (b0 <? 248))%N then
        match r with
        | b1 :: b2 :: b3 :: r3 =>
            let c := (b0 mod 8 * 262144 + b1 mod 64 * 4096 + b2 mod 64 * 64 + b3 mod 64)%N in
            if contb b1 && contb b2 && contb b3 && (65535 <? c)%N && (c <=? 1114111)%N
            then c :: decode r3 else 65533%N :: decode r
        | _ => 65533%N :: decode r
        end
      else 65533%N :: decode r
  end.

(** [string(runes)]: runtime encoderune for each rune. *)
Definition encode_rune (c : N) : list N :=
  if (c <=? 127)%N then [c]
  else if (c <=? 2047)%N then [192 + c / 64; 128 + c mod 64]%N
  else if ((1114111 <? c) || (55296 <=? c) && (c <=? 57343))%N then [239; 191; 189]%N
  else if (c <=? 65535)%N then [224 + c / 4096; 128 + c / 64 mod 64; 128 + c mod 64]%N
  else [240 + c / 262144; 128 + c / 4096 mod 64; 128 + c / 64 mod 64; 128 + c mod 64]%N.
Definition encode (s : list N) : list N := concat (map encode_rune s).

(** A node whose strings are runes, as the node Go has: with strings of bytes. *)
Fixpoint node_bytes (n : node) : node :=
  Node (nType n) (nVType n) (nInt n) (nBool n) (encode (nStr n)) (nFloat n)
    (map (option_map node_bytes) (nArray n))
    (encode (nOperation n)) (encode (nName n)) (map encode (nNames n))
    (option_map node_bytes (nExpression n)) (option_map node_bytes (nLeft n))
    (option_map node_bytes (nOp n)) (option_map node_bytes (nRight n))
    (map (option_map node_bytes) (nParams n)).

(** Parse, miniquery/parse.go:3-16, from bytes to bytes.  (The strings the tree
    builder works on come from string(_buffer[...]); on those TrimSpace, ToLower
    and regexp do to the bytes what they do to the runes.) *)
Definition go_parse (lower_hi : N -> N) (b : list N) : outcome perr (option node) :=
  match parse lower_hi (decode b) with
  | Ok n => Ok (option_map node_bytes n)
  | Err e => Err e
  | Panic => Panic
  end.

(** Join on bytes, miniquery/join.go:5-25: strings.TrimSpace looks at runes, the
    builder concatenates bytes. *)
Definition go_join_step (sb v : list N) : list N :=
  if is_blank (decode v) then sb
  else (match sb with [] => sb | _ => sb ++ #" and " end) ++ #"(" ++ v ++ #")".
Definition go_join (s : list (list N)) : list N :=
  match s with
  | [] => []
  | [x] => x
  | _ => fold_left go_join_step s []
  end.
