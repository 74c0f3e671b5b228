(** What a well formed frame is. *)
From Coq Require Import String.
From Coq Require Import List Bool ZArith.
From Coq.Strings Require Import Byte.
From Verif Require Import Base.Bytes Base.Decimal Rpc.StreamModel.
Import ListNotations.
Open Scope list_scope.

Definition is_ascii (b : byte) : Prop := (Byte.to_N b < 128)%N.
Definition ascii_space (b : byte) : bool :=
  match b with x09 | x0a | x0b | x0c | x0d | x20 => true | _ => false end.
Fixpoint trim_left (s : gostr) : gostr :=
  match s with b :: s' => if ascii_space b then trim_left s' else s | [] => [] end.
Definition ascii_trim (s : gostr) : gostr := rev (trim_left (rev (trim_left s))).
(** on ASCII strings TrimSpace removes the ASCII white space on both sides *)
Definition trim_ok (TS : TrimSpace) : Prop := forall s, Forall is_ascii s -> trim_space s = ascii_trim s.

Section Spec.
Context {TS : TrimSpace}.

(** a line with its newline *)
Definition is_line (l : gostr) : Prop := exists s, l = s ++ [LF] /\ ~ In LF s.
Definition blank (l : gostr) : Prop := trim_space l = [].
(** the header line [l] says [name]: [value] (split at the first colon) *)
Definition header (l name value : gostr) : Prop := trim_space l = name ++ COLON :: value /\ ~ In COLON name.
(** [l] announces [n] bytes, a number from 1 to 2^31-1 *)
Definition announces (l : gostr) (n : Z) : Prop :=
  exists v, header l (B "Content-Length") v /\ Atoi (trim_space v) = Some n /\ (0 < n < 2 ^ 31)%Z.
Definition other_header (l : gostr) : Prop := exists name v, header l name v /\ name <> B "Content-Length".

(** header lines, of which the last Content-Length is that of [data], a blank
    line and the data *)
Inductive frame (data : gostr) : list gostr -> gostr -> Prop :=
| Frame : forall before l after b,
    Forall is_line (before ++ l :: after ++ [b]) -> Forall (fun l => ~ blank l) (before ++ l :: after) -> blank b ->
    Forall (fun l => other_header l \/ exists n, announces l n) before -> Forall other_header after ->
    announces l (Z.of_nat (length data)) ->
    frame data (before ++ l :: after ++ [b]) (concat (before ++ l :: after ++ [b]) ++ data).

(** successive reads *)
Fixpoint reads (n : nat) (s : gostr) : list read_result * gostr :=
  match n with
  | O => ([], s)
  | S n => let '(r, s) := Read s in let '(rs, s) := reads n s in (r :: rs, s)
  end.
End Spec.
