(** util/uri.go: the names of files, and the part of Go's net/url they use.

    net/url is modelled for URIs that begin with "file:///" (scheme "file", no
    authority), which is what all of uri.go makes of a path; other URIs are
    errors here.  The functions are those of Go 1.18 (go.mod); unlike the rest
    of the model they are transcribed from the documentation and the known
    behaviour of the package, which is not part of /repo. *)
From Coq Require Import String.
From Coq Require Import List Bool NArith ZArith.
From Coq.Strings Require Import Byte.
From Verif Require Import Base.Bytes.
Import ListNotations.
Open Scope list_scope.
Open Scope nat_scope.

(** ** net/url *)
Inductive mode := QueryComponent | PathMode | FragmentMode.

Definition SLASH : byte := x2f.
Definition PERCENT : byte := x25.
Definition PLUS : byte := x2b.
Definition SPACE : byte := x20.
Definition HASH : byte := x23.
Definition QUESTION : byte := x3f.
Definition COLON : byte := x3a.
Definition BACKSLASH : byte := x5c.

Definition in_range (lo hi : N) (c : byte) : bool := N.leb lo (Byte.to_N c) && N.leb (Byte.to_N c) hi.
(** letters, digits and '-', '_', '.', '~' *)
Definition unreserved (c : byte) : bool :=
  in_range 97 122 c || in_range 65 90 c || in_range 48 57 c
  || byte_eqb c x2d || byte_eqb c x5f || byte_eqb c x2e || byte_eqb c x7e.
(** one of the given characters *)
Definition among (l : gostr) (c : byte) : bool := existsb (byte_eqb c) l.

(** shouldEscape *)
Definition shouldEscape (c : byte) (m : mode) : bool :=
  if unreserved c then false
  else if among (B "$&+,/:;=?@") c then
    match m with QueryComponent => true | PathMode => byte_eqb c QUESTION | FragmentMode => false end
  else match m with
       | FragmentMode => negb (among (B "!()*") c)
       | _ => true
       end.

(** the digits "0123456789ABCDEF"; ishex and unhex take small letters as well *)
Definition hex_digit (n : N) : byte :=
  match Byte.of_N (if N.ltb n 10 then 48 + n else 55 + n) with Some b => b | None => x00 end.
Definition unhex (c : byte) : option N :=
  if in_range 48 57 c then Some (Byte.to_N c - 48)%N
  else if in_range 65 70 c then Some (Byte.to_N c - 55)%N
  else if in_range 97 102 c then Some (Byte.to_N c - 87)%N
  else None.

(** escape *)
Definition escape_byte (m : mode) (c : byte) : gostr :=
  match m with
  | QueryComponent => if byte_eqb c SPACE then [PLUS]
                      else if shouldEscape c m then [PERCENT; hex_digit (Byte.to_N c / 16); hex_digit (Byte.to_N c mod 16)] else [c]
  | _ => if shouldEscape c m then [PERCENT; hex_digit (Byte.to_N c / 16); hex_digit (Byte.to_N c mod 16)] else [c]
  end.
Definition escape (s : gostr) (m : mode) : gostr := flat_map (escape_byte m) s.

(** unescape; [None] is its error *)
Fixpoint unescape (s : gostr) (m : mode) : option gostr :=
  match s with
  | [] => Some []
  | c :: r =>
      if byte_eqb c PERCENT then
        match r with
        | a :: b :: r' =>
            match unhex a, unhex b with
            | Some x, Some y =>
                match Byte.of_N (16 * x + y) with
                | Some d => option_map (cons d) (unescape r' m)
                | None => None
                end
            | _, _ => None
            end
        | _ => None
        end
      else option_map (cons (match m with
                             | QueryComponent => if byte_eqb c PLUS then SPACE else c
                             | _ => c end)) (unescape r m)
  end.
Definition QueryEscape (s : gostr) : gostr := escape s QueryComponent.
Definition QueryUnescape (s : gostr) : option gostr := unescape s QueryComponent.

(** validEncoded *)
Definition validEncoded (s : gostr) (m : mode) : bool :=
  forallb (fun c => among (B "!$&'()*+,;=:@[]%") c || negb (shouldEscape c m)) s.

(** the fields of a URL that are not fixed by "file:///"; the query with the
    '?' it stands behind (RawQuery, ForceQuery) *)
Record url := Url { u_path : gostr; u_rawpath : gostr; u_query : option gostr; u_fragment : gostr; u_rawfragment : gostr }.

(** strings.Cut with a one byte separator *)
Definition cut (s : gostr) (c : byte) : gostr * option gostr :=
  match index_byte s c with
  | Some i => (firstn i s, Some (skipn (S i) s))
  | None => (s, None)
  end.

(** stringContainsCTLByte *)
Definition ctl (c : byte) : bool := in_range 0 31 c || byte_eqb c x7f.

(** the encoding kept beside the decoded text, setPath and setFragment *)
Definition raw (p decoded : gostr) (m : mode) : gostr := if str_eqb p (escape decoded m) then [] else p.

(** parse (and with it ParseRequestURI, which takes '#' for a part of the path) *)
Definition ParseRequestURI (s : gostr) : option url :=
  if existsb ctl s then None
  else if negb (has_prefix (B "file:///") s) then None
  else let '(p, q) := cut (skipn 7 s) QUESTION in
       match unescape p PathMode with
       | None => None
       | Some path => Some (Url path (raw p path PathMode) q [] [])
       end.
(** Parse *)
Definition Parse (s : gostr) : option url :=
  let '(u, frag) := cut s HASH in
  match ParseRequestURI u with
  | None => None
  | Some r =>
      match frag with
      | None | Some [] => Some r
      | Some f => match unescape f FragmentMode with
                  | None => None
                  | Some f' => Some (Url (u_path r) (u_rawpath r) (u_query r) f' (raw f f' FragmentMode))
                  end
      end
  end.

(** EscapedPath and EscapedFragment *)
Definition escaped (decoded rawtext : gostr) (m : mode) : gostr :=
  match rawtext with
  | [] => escape decoded m
  | _ => if validEncoded rawtext m && match unescape rawtext m with Some p => str_eqb p decoded | None => false end
         then rawtext else escape decoded m
  end.
(** URL.String, with the path not empty *)
Definition String_ (u : url) : gostr :=
  B "file://" ++ escaped (u_path u) (u_rawpath u) PathMode
  ++ match u_query u with None => [] | Some q => QUESTION :: q end
  ++ match u_fragment u with [] => [] | _ => HASH :: escaped (u_fragment u) (u_rawfragment u) FragmentMode end.

(** ** util/uri.go *)
(** uri.go:13-36 URIToPath *)
Definition URIToPath (uri : gostr) : option gostr :=
  match ParseRequestURI uri with
  | None => None
  | Some u =>
      match QueryUnescape (u_path u) with
      | None => None
      | Some filePath =>
          Some (if contains_byte filePath COLON
                then map (fun c => if byte_eqb c SLASH then BACKSLASH else c) (trim_prefix filePath [SLASH])
                else filePath)
      end
  end.

(** uri.go:38-59 PathToURI *)
Definition PathToURI (path : gostr) : gostr :=
  let path := map (fun c => if byte_eqb c BACKSLASH then SLASH else c) (trim_both (fun c => byte_eqb c SLASH) path) in
  match split_byte path SLASH with
  | [] => []  (* strings.Split gives at least one part *)
  | first :: parts =>
      let first := if has_suffix [COLON] first then first else QueryEscape first in
      String_ (Url (SLASH :: join (first :: map QueryEscape parts) [SLASH]) [] None [] [])
  end.

(** uri.go:112-123 DecodeURIFromQuery *)
Definition DecodeURIFromQuery (uri : gostr) : option gostr :=
  match QueryUnescape uri with
  | None => None
  | Some uri => option_map String_ (Parse uri)
  end.

(** ** The names a file gets *)
(** workspaceStore.go:193-203,52-70, and sync.go:81-91 for the files of a folder
    that was created: what the indexer calls the file *)
Definition indexed_as (path : gostr) : option gostr := DecodeURIFromQuery (PathToURI path).
(** sync.go:59-66, workspaceStore.go:52-70,77-89: what a file is called when the
    editor notifies its change or deletion *)
Definition notified_as (uri : gostr) : option gostr := DecodeURIFromQuery uri.
(** fs.go:77-84: the file that is read for a document *)
Definition read_from (uri : gostr) : option gostr := URIToPath uri.
