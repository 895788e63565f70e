(** Blob stores (/repo/blobstore/blobstore.go:13-29) as maps, and the encodings the
    store wrappers use. *)
From Coq Require Import Strings.String Strings.Ascii Strings.Byte Numbers.DecimalString.
From Verif.Lib Require Import Prelude.
Open Scope N_scope.

Definition bytes := list byte.
(** (set, key) *)
Definition skey := (string * string)%type.
Definition skey_dec (a b : skey) : {a = b} + {a <> b}.
Proof. decide equality; apply string_dec. Defined.

(** what a store holds; None = ErrBlobNotFound *)
Definition kv := skey -> option bytes.
Definition kv_put (s : kv) (k : skey) (v : option bytes) : kv :=
  fun k' => if skey_dec k k' then v else s k'.
Definition kv_empty : kv := fun _ => None.

(** strconv.Itoa for non-negative arguments *)
Definition itoa (n : N) : string := NilZero.string_of_uint (N.to_uint n).

(** encoding/binary PutUvarint for values below 2^64 (at most 10 bytes) *)
Fixpoint put_uvarint (fuel : nat) (n : N) : bytes :=
  match fuel with
  | O => []
  | S f => if n <? 128 then match Byte.of_N n with Some b => [b] | None => [] end
           else match Byte.of_N (n mod 128 + 128) with
                | Some b => b :: put_uvarint f (n / 128)
                | None => []
                end
  end.
(** encoding/binary Uvarint: value and size; None when size < 1 *)
Fixpoint uvarint_from (fuel : nat) (size : nat) (acc shift : N) (b : bytes) : option (N * nat) :=
  match b with
  | [] => None
  | x :: r =>
    match fuel with
    | O => None
    | S f =>
      let v := Byte.to_N x in
      if v <? 128 then
        if Nat.eqb f 0 && (1 <? v) then None else Some (acc + v * shift, S size)
      else uvarint_from f (S size) (acc + (v - 128) * shift) (shift * 128) r
    end
  end.
Definition uvarint (b : bytes) : option (N * nat) := uvarint_from 10 0 0 1 b.
