(** Model of the parts of github.com/tinylib/msgp that the generated codecs call.  The library
    is not part of /repo; this follows its documented behaviour (the MessagePack format, always
    the shortest encoding of the given kind).  Reading accepts the other integer kinds with a
    range check, as the library does.  None = any error (short input, wrong type, overflow). *)
From Coq Require Import Strings.Byte Strings.String.
From Verif.Lib Require Import Prelude.
Open Scope N_scope.

Definition wire := list byte.
Definition Nb (n : N) : byte := match Byte.of_N (n mod 256) with Some b => b | None => x00 end.
Definition bN (b : byte) : N := Byte.to_N b.

(** ** readers *)
Definition reader (A : Type) := wire -> option (A * wire).
Definition ret {A} (a : A) : reader A := fun b => Some (a, b).
Definition fail {A} : reader A := fun _ => None.
Definition bind {A B} (p : reader A) (f : A -> reader B) : reader B :=
  fun b => match p b with Some (a, r) => f a r | None => None end.
Notation "x <- p ;; q" := (bind p (fun x => q)) (at level 100, p at next level, right associativity).
(** one byte *)
Definition next : reader N := fun b => match b with [] => None | c :: r => Some (bN c, r) end.
(** n bytes *)
Definition take (n : nat) : reader wire :=
  fun b => if (length b <? n)%nat then None else Some (firstn n b, skipn n b).
(** n items *)
Fixpoint times {A} (n : nat) (p : reader A) : reader (list A) :=
  match n with
  | O => ret []
  | S n => x <- p ;; xs <- times n p ;; ret (x :: xs)
  end.
Definition check {A} (c : bool) (p : reader A) : reader A := if c then p else fail.

(** ** big-endian numbers *)
Fixpoint be (k : nat) (n : N) : wire :=
  match k with O => [] | S k => Nb (n / 256 ^ N.of_nat k) :: be k n end.
Fixpoint val (acc : N) (b : wire) : N :=
  match b with [] => acc | c :: r => val (acc * 256 + bN c) r end.
Definition get (k : nat) : reader N := b <- take k ;; ret (val 0 b).
(** two's complement, k bytes *)
Definition signed (k : nat) (n : N) : Z :=
  if n <? 2 ^ (8 * N.of_nat k - 1) then Z.of_N n else (Z.of_N n - 2 ^ (8 * Z.of_nat k))%Z.
Definition unsigned (k : nat) (z : Z) : N := Z.to_N (z mod 2 ^ (8 * Z.of_nat k)).

(** ** integers: WriteUint64, WriteInt64, ReadUint64, ReadInt64 and the narrower forms *)
Definition w_uint (n : N) : wire :=
  if n <? 128 then [Nb n]
  else if n <? 2 ^ 8 then Nb 0xcc :: be 1 n
  else if n <? 2 ^ 16 then Nb 0xcd :: be 2 n
  else if n <? 2 ^ 32 then Nb 0xce :: be 4 n
  else Nb 0xcf :: be 8 n.
Definition w_int (z : Z) : wire :=
  if (0 <=? z)%Z then
    if (z <? 2 ^ 7)%Z then [Nb (Z.to_N z)]
    else if (z <? 2 ^ 15)%Z then Nb 0xd1 :: be 2 (Z.to_N z)
    else if (z <? 2 ^ 31)%Z then Nb 0xd2 :: be 4 (Z.to_N z)
    else Nb 0xd3 :: be 8 (Z.to_N z)
  else
    if (-32 <=? z)%Z then [Nb (unsigned 1 z)]
    else if (- 2 ^ 7 <=? z)%Z then Nb 0xd0 :: be 1 (unsigned 1 z)
    else if (- 2 ^ 15 <=? z)%Z then Nb 0xd1 :: be 2 (unsigned 2 z)
    else if (- 2 ^ 31 <=? z)%Z then Nb 0xd2 :: be 4 (unsigned 4 z)
    else Nb 0xd3 :: be 8 (unsigned 8 z).
(** any integer, before the range check *)
Definition r_integer : reader Z :=
  c <- next ;;
  if c <? 0x80 then ret (Z.of_N c)
  else if 0xe0 <=? c then ret (Z.of_N c - 256)%Z
  else match c with
       | 0xcc => n <- get 1 ;; ret (Z.of_N n)
       | 0xcd => n <- get 2 ;; ret (Z.of_N n)
       | 0xce => n <- get 4 ;; ret (Z.of_N n)
       | 0xcf => n <- get 8 ;; ret (Z.of_N n)
       | 0xd0 => n <- get 1 ;; ret (signed 1 n)
       | 0xd1 => n <- get 2 ;; ret (signed 2 n)
       | 0xd2 => n <- get 4 ;; ret (signed 4 n)
       | 0xd3 => n <- get 8 ;; ret (signed 8 n)
       | _ => fail
       end.
(** ReadUint64, ReadUint32, ReadUint8: [bits] wide *)
Definition r_uint (bits : N) : reader N :=
  z <- r_integer ;; check ((0 <=? z)%Z && (z <? 2 ^ Z.of_N bits)%Z) (ret (Z.to_N z)).
(** ReadInt64 and ReadInt (64 bit) *)
Definition r_int : reader Z :=
  z <- r_integer ;; check ((- 2 ^ 63 <=? z)%Z && (z <? 2 ^ 63)%Z) (ret z).

(** ** booleans *)
Definition w_bool (b : bool) : wire := [if b then Nb 0xc3 else Nb 0xc2].
Definition r_bool : reader bool :=
  c <- next ;; match c with 0xc2 => ret false | 0xc3 => ret true | _ => fail end.

(** ** strings and byte slices; lengths are uint32(len(s)) *)
Definition len32 {A} (l : list A) : N := N.of_nat (length l) mod 2 ^ 32.
Definition w_str (s : string) : wire :=
  let b := list_byte_of_string s in
  let n := len32 b in
  (if n <? 32 then [Nb (0xa0 + n)]
   else if n <? 2 ^ 8 then Nb 0xd9 :: be 1 n
   else if n <? 2 ^ 16 then Nb 0xda :: be 2 n
   else Nb 0xdb :: be 4 n) ++ b.
Definition r_str : reader string :=
  c <- next ;;
  n <- (if (0xa0 <=? c) && (c <? 0xc0) then ret (c - 0xa0)
        else match c with 0xd9 => get 1 | 0xda => get 2 | 0xdb => get 4 | _ => fail end) ;;
  b <- take (N.to_nat n) ;; ret (string_of_list_byte b).
Definition w_bin (b : wire) : wire :=
  let n := len32 b in
  (if n <? 2 ^ 8 then Nb 0xc4 :: be 1 n
   else if n <? 2 ^ 16 then Nb 0xc5 :: be 2 n
   else Nb 0xc6 :: be 4 n) ++ b.
Definition r_bin : reader wire :=
  c <- next ;;
  n <- match c with 0xc4 => get 1 | 0xc5 => get 2 | 0xc6 => get 4 | _ => fail end ;;
  take (N.to_nat n).

(** ** array and map headers *)
Definition w_arr (n : N) : wire :=
  if n <? 16 then [Nb (0x90 + n)] else if n <? 2 ^ 16 then Nb 0xdc :: be 2 n else Nb 0xdd :: be 4 n.
Definition r_arr : reader N :=
  c <- next ;;
  if (0x90 <=? c) && (c <? 0xa0) then ret (c - 0x90)
  else match c with 0xdc => get 2 | 0xdd => get 4 | _ => fail end.
Definition w_map (n : N) : wire :=
  if n <? 16 then [Nb (0x80 + n)] else if n <? 2 ^ 16 then Nb 0xde :: be 2 n else Nb 0xdf :: be 4 n.
Definition r_map : reader N :=
  c <- next ;;
  if (0x80 <=? c) && (c <? 0x90) then ret (c - 0x80)
  else match c with 0xde => get 2 | 0xdf => get 4 | _ => fail end.
