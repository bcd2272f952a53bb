(** Conversion of strings between UTF-8 and UTF-16: code_conversion_tool (StringConversion.hpp:85-146). *)
From Verif Require Import Base.

(** ** The facets codecvt<char16_t, char8_t, mbstate_t>, in and out, of libstdc++.  They are not part of /repo. *)
(** Reading one character: the character and how many units it has. *)
Inductive next := Char (c : N) (units : nat) | Incomplete | Invalid.
Definition cont (b : N) : bool := b / 64 =? 2.                       (* (b & 0xC0) == 0x80 *)
Definition next8 (s : list N) : next :=
  match s with
  | [] => Incomplete
  | c1 :: r =>
      if c1 <? 128 then Char c1 1
      else if c1 <? 194 then Invalid                                 (* continuation byte or overlong *)
      else if c1 <? 224 then
        match r with
        | [] => Incomplete
        | c2 :: _ => if cont c2 then Char (c1 * 64 + c2 - 12416) 2 else Invalid
        end
      else if c1 <? 240 then
        match r with
        | [] => Incomplete
        | c2 :: r =>
            if negb (cont c2) || ((c1 =? 224) && (c2 <? 160)) || ((c1 =? 237) && (160 <=? c2)) then Invalid else
            match r with
            | [] => Incomplete
            | c3 :: _ => if cont c3 then Char (c1 * 4096 + c2 * 64 + c3 - 925824) 3 else Invalid
            end
        end
      else if c1 <? 245 then
        match r with
        | [] => Incomplete
        | c2 :: r =>
            if negb (cont c2) || ((c1 =? 240) && (c2 <? 144)) || ((c1 =? 244) && (144 <=? c2)) then Invalid else
            match r with
            | [] => Incomplete
            | c3 :: r =>
                if negb (cont c3) then Invalid else
                match r with
                | [] => Incomplete
                | c4 :: _ => if cont c4 then Char (c1 * 262144 + c2 * 4096 + c3 * 64 + c4 - 63447168) 4 else Invalid
                end
            end
        end
      else Invalid
  end.
Definition high (c : N) : bool := (55296 <=? c) && (c <? 56320).
Definition low (c : N) : bool := (56320 <=? c) && (c <? 57344).
Definition next16 (s : list N) : next :=
  match s with
  | [] => Incomplete
  | c :: r =>
      if high c then
        match r with
        | [] => Incomplete
        | d :: _ => if low d then Char ((c - 55296) * 1024 + (d - 56320) + 65536) 2 else Invalid
        end
      else if low c then Invalid
      else Char c 1
  end.
(** Writing one character. *)
Definition utf8 (c : N) : list N :=
  if c <? 128 then [c]
  else if c <? 2048 then [192 + c / 64; 128 + c mod 64]
  else if c <? 65536 then [224 + c / 4096; 128 + c / 64 mod 64; 128 + c mod 64]
  else [240 + c / 262144; 128 + c / 4096 mod 64; 128 + c / 64 mod 64; 128 + c mod 64].
Definition utf16 (c : N) : list N :=
  if c <? 65536 then [c] else [55296 + (c - 65536) / 1024; 56320 + (c - 65536) mod 1024].

Inductive cvt := COk | CPartial | CError.
Section Convert.
  Variable read : list N -> next.      (* of the input *)
  Variable write : N -> list N.        (* of the output *)
  Variable at_end : cvt.               (* the result for an incomplete character: in: partial, out: ok *)
  (** in/out: converts characters while there is input and room; the result, the input left and the units written. *)
  Fixpoint translate (fuel : nat) (s : list N) (room : nat) : cvt * list N * list N :=
    match fuel, s, room with
    | S n, _ :: _, S _ =>
        match read s with
        | Char c k =>
            if Nat.leb (List.length (write c)) room then
              let '(res, s', w) := translate n (skipn k s) (room - List.length (write c)) in (res, s', write c ++ w)
            else (CPartial, s, [])
        | Incomplete => (at_end, s, [])
        | Invalid => (CError, s, [])
        end
    | _, _, _ => (COk, s, [])
    end.
  Definition buffer_size : nat := 64.
  (** The loop (103-142); [buffer] keeps its contents from one turn to the next, at first they are indeterminate. *)
  Fixpoint convert_loop (fuel : nat) (s : list N) (buffer output : list N) : res (list N) :=
    match fuel with
    | O => Fail Loop
    | S n =>
        let '(res, s', w) := translate (List.length s) s buffer_size in
        let buffer := w ++ skipn (List.length w) buffer in
        match res with
        | CError => Fail Throw
        | COk => match s' with
                 | [] => Ok (output ++ firstn (List.length w) buffer)
                 | _ => convert_loop n s' buffer (output ++ buffer)
                 end
        | CPartial => convert_loop n s' buffer (output ++ buffer)
        end
    end.
End Convert.
(** code_conversion_tool<char16_t>(s) and code_conversion_tool<char8_t>(s); [junk]: the initial contents of the buffer. *)
Definition to_utf16 (fuel : nat) (junk s : list N) : res (list N) := convert_loop next8 utf16 CPartial fuel s junk [].
Definition to_utf8 (fuel : nat) (junk s : list N) : res (list N) := convert_loop next16 utf8 COk fuel s junk [].
