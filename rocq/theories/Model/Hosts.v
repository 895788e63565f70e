(** Model of the host list of the Aerospike store: /repo/blobstore/aerostore/aerostore.go:31-42, 114-140. *)
From Coq Require Import Strings.String Strings.Ascii.
From Verif.Lib Require Import Prelude ListAux.
From Verif.Lib Require Export Bytes.
From Verif.Model Require Import Keys Access.
Open Scope Z_scope.

Definition colon : ascii := ":".
(** strings.Split(s, ":") *)
Fixpoint split_colon (s : bytes) : list bytes :=
  match s with
  | [] => [[]]
  | c :: r =>
    if Ascii.eqb c colon then [] :: split_colon r
    else match split_colon r with [] => [[c]] | p :: ps => (c :: p) :: ps end
  end.
(** strconv.ParseUint(s, 10, 64) behind strconv.Atoi: it stops at the first byte that is no digit, and at the first
    digit with which the number does not fit *)
Inductive digits := DBad | DRange | DVal (v : N).
Fixpoint digits_loop (n : N) (s : bytes) : digits :=
  match s with
  | [] => DVal n
  | c :: r =>
    let d := N_of_ascii c in
    if ((48 <=? d) && (d <=? 57))%N then
      if (2 ^ 64 <=? 10 * n + (d - 48))%N then DRange else digits_loop (10 * n + (d - 48)) r
    else DBad
  end.
(** strconv.Atoi(s) without its error: 0 if s is no number, the nearest int64 if it does not fit.  The short way for
    less than 19 bytes gives the same. *)
Definition int64_of (neg : bool) (d : digits) : Z :=
  match d with
  | DBad => 0
  | DRange => if neg then - 2 ^ 63 else 2 ^ 63 - 1
  | DVal v => if neg then Z.max (- Z.of_N v) (- 2 ^ 63) else Z.min (Z.of_N v) (2 ^ 63 - 1)
  end.
Definition unsigned (s : bytes) : digits := match s with [] => DBad | _ => digits_loop 0 s end.
Definition atoi (s : bytes) : Z :=
  match s with
  | c :: r => if Ascii.eqb c "-" then int64_of true (unsigned r) else if Ascii.eqb c "+" then int64_of false (unsigned r) else int64_of false (unsigned s)
  | [] => 0
  end.
(** aerostore.go:125-136 *)
Definition host_of (default : Z) (hwp : bytes) : bytes * Z :=
  match split_colon hwp with
  | n :: p :: _ => (trim n, if 0 <? atoi p then atoi p else default)
  | n :: [] => (trim n, default)
  | [] => (trim [], default)
  end.
(** aerostore.go:121-140 *)
Definition parse_hosts (hosts : bytes) (default : Z) : list (bytes * Z) := map (host_of default) (split_comma hosts).
(** aerostore.go:36-42; None: "no hosts specified" *)
Definition new_hosts (hosts : bytes) : option (list (bytes * Z)) :=
  match parse_hosts hosts 3000 with [] => None | l => Some l end.
