(** The header framing of JSON-RPC messages: internal/jsonrpc2/stream.go. The
    input stream is the sequence of bytes that remain to be read. Contexts are
    not modelled (a cancelled context makes Read and Write return at once). *)
From Coq Require Import String.
From Coq Require Import List Bool ZArith.
From Coq.Strings Require Import Byte.
From Verif Require Import Base.Bytes Base.Decimal.
Import ListNotations.
Open Scope list_scope.

Definition LF : byte := x0a.
Definition COLON : byte := x3a.

(** strings.TrimSpace (Go standard library), see [trim_ok] in StreamSpec.v *)
Class TrimSpace := { trim_space : gostr -> gostr }.

(** bufio.Reader.ReadString('\n'): up to and including the first newline;
    [None] if there is none (the error io.EOF) *)
Fixpoint ReadString (s : gostr) : option (gostr * gostr) :=
  match s with
  | [] => None
  | b :: s =>
      if Byte.eqb b LF then Some ([b], s)
      else match ReadString s with Some (l, r) => Some (b :: l, r) | None => None end
  end.

(** strings.IndexRune(line, ':') with the two slices stream.go:111 *)
Fixpoint cut_colon (s : gostr) : option (gostr * gostr) :=
  match s with
  | [] => None
  | b :: s =>
      if Byte.eqb b COLON then Some ([], s)
      else match cut_colon s with Some (l, r) => Some (b :: l, r) | None => None end
  end.

(** strconv.ParseInt(value, 10, 32); [None] is the error *)
Definition ParseInt32 (s : gostr) : option Z :=
  match Atoi s with
  | Some z => if (Z.leb (- 2 ^ 31) z && Z.ltb z (2 ^ 31))%Z then Some z else None
  | None => None
  end.

Inductive read_result :=
| Failed                       (* a non-nil error *)
| Message (data : gostr) (total : Z).

Section Stream.
Context {TS : TrimSpace}.

(** stream.go:94-123, the header loop; [length] is 0 until a Content-Length
    was read. Each round consumes a byte, [fuel] is more than there are. *)
Fixpoint read_header (fuel : nat) (s : gostr) (total length : Z) : option (Z * Z) * gostr :=
  match fuel with
  | O => (None, s)
  | S fuel =>
      match ReadString s with
      | None => (None, [])
      | Some (line, s) =>
          let total := (total + Z.of_nat (List.length line))%Z in
          match trim_space line with
          | [] => (Some (total, length), s)
          | line =>
              match cut_colon line with
              | None => (None, s)
              | Some (name, value) =>
                  if str_eqb name (B "Content-Length") then
                    match ParseInt32 (trim_space value) with
                    | None => (None, s)
                    | Some length => if (length <=? 0)%Z then (None, s) else read_header fuel s total length
                    end
                  else read_header fuel s total length
              end
          end
      end
  end.

(** stream.go:88-133 headerStream.Read; the second component is what remains *)
Definition Read (s : gostr) : read_result * gostr :=
  match read_header (S (List.length s)) s 0 0 with
  | (None, s) => (Failed, s)
  | (Some (total, length), s) =>
      if (length =? 0)%Z then (Failed, s)
      else if (Z.of_nat (List.length s) <? length)%Z then (Failed, [])       (* io.ReadFull *)
      else (Message (firstn (Z.to_nat length) s) (total + length), skipn (Z.to_nat length) s)
  end.

End Stream.

(** stream.go:135-150 headerStream.Write on a writer without errors: the bytes
    written (both parts under outMu) *)
Definition Write (data : gostr) : gostr :=
  B "Content-Length: " ++ Itoa (Z.of_nat (List.length data)) ++ [x0d; x0a; x0d; x0a] ++ data.
