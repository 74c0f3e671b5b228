From Coq Require Import String.
From Coq Require Import List Bool NArith ZArith Lia.
From Coq.Strings Require Import Byte.
From Verif Require Import Base.Bytes Base.BytesProofs Uri.UriModel Uri.UriSpec.
Import ListNotations.
Open Scope list_scope.
Open Scope nat_scope.

(** one byte of the path in PathToURI and in the URI it becomes *)
Definition once (c : byte) : gostr := if byte_eqb c SLASH then [c] else escape_byte QueryComponent c.
Definition enc (c : byte) : gostr := if existsb (byte_eqb c) literal then [c] else percent c.
Definition spaced (c : byte) : gostr := if byte_eqb c SPACE then [c] else enc c.

Lemma unescape_enc : forall m c r, unescape (enc c ++ r) m = option_map (cons c) (unescape r m).
Proof. intros m c r. destruct m, c; reflexivity. Qed.
Lemma unescape_spaced : forall c r, unescape (spaced c ++ r) PathMode = option_map (cons c) (unescape r PathMode).
Proof. intros c r. destruct c; reflexivity. Qed.
Lemma unescape_path : forall c r, unescape (escape_byte PathMode c ++ r) PathMode = option_map (cons c) (unescape r PathMode).
Proof. intros c r. destruct c; reflexivity. Qed.
Lemma unescape_twice : forall c r, unescape (escape (once c) PathMode ++ r) QueryComponent = option_map (app (spaced c)) (unescape r QueryComponent).
Proof.
  intros c r. assert (E : forall o : option gostr, option_map (app [c]) o = option_map (cons c) o) by (now intros [?|]).
  destruct c; cbn -[unescape]; (reflexivity || (cbn; destruct (unescape r QueryComponent); reflexivity)).
Qed.

Lemma unescape_flat : forall m f, (forall c r, unescape (f c ++ r) m = option_map (cons c) (unescape r m)) ->
  forall s, unescape (flat_map f s) m = Some s.
Proof.
  intros m f H. induction s as [|c s IH]; [reflexivity|]. simpl. rewrite H, IH. reflexivity.
Qed.
Lemma unescape_encode : forall m s, unescape (encode s) m = Some s.
Proof. intros m. apply unescape_flat. apply unescape_enc. Qed.
Lemma unescape_twice_all : forall q, unescape (escape (flat_map once q) PathMode) QueryComponent = Some (flat_map spaced q).
Proof.
  induction q as [|c q IH]; [reflexivity|]. cbn [flat_map]. unfold escape in *. rewrite flat_map_app.
  assert (U := unescape_twice c (flat_map (escape_byte PathMode) (flat_map once q))). unfold escape in U. rewrite U, IH. reflexivity.
Qed.

Lemma unescape_file : forall m s, unescape (B "file://" ++ s) m = option_map (app (B "file://")) (unescape s m).
Proof. intros m s. destruct m; cbn; destruct (unescape s _); reflexivity. Qed.

Lemma index_none : forall s c, ~ In c s -> index_byte s c = None.
Proof.
  induction s as [|x s IH]; intros c N; [reflexivity|]. simpl. destruct (byte_eqb x c) eqn:E.
  - apply Byte.byte_dec_bl in E. subst. exfalso. apply N. now left.
  - rewrite IH; [reflexivity|]. intros I. apply N. now right.
Qed.
Lemma cut_none : forall s c, ~ In c s -> cut s c = (s, None).
Proof. intros s c N. unfold cut. now rewrite index_none. Qed.

Lemma flat_free : forall (f : byte -> gostr) (c : byte) s, (forall x, In c (f x) -> False) -> ~ In c (flat_map f s).
Proof. intros f c s H I. apply in_flat_map in I as (x & _ & I). eauto. Qed.
Ltac bytes x := destruct x; cbn; intuition discriminate.
Lemma spaced_ctl : forall x, existsb ctl (spaced x) = false.
Proof. destruct x; reflexivity. Qed.
Lemma spaced_hash : forall x, In HASH (spaced x) -> False.
Proof. intros x. assert (H : existsb (byte_eqb HASH) (spaced x) = false) by (destruct x; reflexivity).
  intros I. assert (existsb (byte_eqb HASH) (spaced x) = true) by (apply existsb_exists; exists HASH; auto). congruence. Qed.
Lemma spaced_question : forall x, In QUESTION (spaced x) -> False.
Proof. intros x. assert (H : existsb (byte_eqb QUESTION) (spaced x) = false) by (destruct x; reflexivity).
  intros I. assert (existsb (byte_eqb QUESTION) (spaced x) = true) by (apply existsb_exists; exists QUESTION; auto). congruence. Qed.
Lemma existsb_flat : forall A (p : byte -> bool) (f : A -> gostr) s, (forall x, In x s -> existsb p (f x) = false) -> existsb p (flat_map f s) = false.
Proof. intros A p f. induction s as [|x s IH]; intros H; [reflexivity|]. simpl. rewrite existsb_app, (H x (or_introl eq_refl)). apply IH. intros; apply H; now right. Qed.

Lemma in_file : forall c, In c (B "file://") -> c <> HASH /\ c <> QUESTION /\ ctl c = false.
Proof. intros c I. cbn in I. repeat (destruct I as [<-|I]; [repeat split; discriminate|]). destruct I. Qed.

(** parsing a URI of a path *)
Lemma parse_path : forall p path, existsb ctl p = false -> ~ In QUESTION p -> (exists r, p = SLASH :: r) -> unescape p PathMode = Some path ->
  ParseRequestURI (B "file://" ++ p) = Some (Url path (raw p path PathMode) None [] []).
Proof.
  intros p path C Q [r E] U. unfold ParseRequestURI. rewrite existsb_app, C. change (existsb ctl (B "file://")) with false.
  assert (has_prefix (B "file:///") (B "file://" ++ p) = true) as -> by (subst p; reflexivity). cbn [orb negb].
  change (skipn 7 (B "file://" ++ p)) with p. rewrite (cut_none _ _ Q), U. reflexivity.
Qed.
Lemma Parse_path : forall p path, existsb ctl p = false -> ~ In QUESTION p -> ~ In HASH p -> (exists r, p = SLASH :: r) -> unescape p PathMode = Some path ->
  Parse (B "file://" ++ p) = Some (Url path (raw p path PathMode) None [] []).
Proof.
  intros p path C Q H R U. unfold Parse. rewrite cut_none.
  - now rewrite (parse_path p path).
  - intros I. apply in_app_or in I as [I|I]; [|contradiction]. apply in_file in I. tauto.
Qed.

Lemma str_eqb_true : forall a b, str_eqb a b = true -> a = b.
Proof. intros a b. apply str_eqb_eq. Qed.

Lemma escaped_raw : forall p path, unescape p PathMode = Some path ->
  escaped path (raw p path PathMode) PathMode = if validEncoded p PathMode then p else escape path PathMode.
Proof.
  intros p path U. unfold raw. destruct (str_eqb p (escape path PathMode)) eqn:E.
  - apply str_eqb_true in E. cbn [escaped]. rewrite <- E. destruct (validEncoded p PathMode); reflexivity.
  - unfold escaped. rewrite U, str_eqb_refl, andb_true_r. destruct p as [|c p]; [|reflexivity]. injection U as <-. discriminate E.
Qed.

Lemma valid_spaced : forall x, validEncoded (spaced x) PathMode = negb (byte_eqb x SPACE).
Proof. destruct x; reflexivity. Qed.
Lemma spaced_free : forall q, ~ In SPACE q -> flat_map spaced q = encode q.
Proof.
  induction q as [|c q IH]; intros N; [reflexivity|]. cbn [flat_map encode]. fold (encode q). rewrite IH by (intros I; apply N; now right).
  unfold spaced at 1. destruct (byte_eqb c SPACE) eqn:E; [|reflexivity]. apply Byte.byte_dec_bl in E. subst. exfalso. apply N. now left.
Qed.
Lemma valid_app : forall a b, validEncoded (a ++ b) PathMode = validEncoded a PathMode && validEncoded b PathMode.
Proof. intros. apply forallb_app. Qed.
Lemma valid_all : forall q, validEncoded (flat_map spaced q) PathMode = negb (contains_byte q SPACE).
Proof.
  unfold contains_byte. induction q as [|c q IH]; [reflexivity|]. cbn [flat_map existsb]. rewrite valid_app, IH, valid_spaced, negb_orb. reflexivity.
Qed.

(** ** The names *)
Lemma spaced_slash : forall r, flat_map spaced (SLASH :: r) = SLASH :: flat_map spaced r.
Proof. reflexivity. Qed.

Lemma decode_once : forall q, (exists r, q = SLASH :: r) ->
  DecodeURIFromQuery (B "file://" ++ escape (flat_map once q) PathMode)
  = Some (B "file://" ++ if contains_byte q SPACE then escape q PathMode else encode q).
Proof.
  intros q [r E]. unfold DecodeURIFromQuery, QueryUnescape. rewrite unescape_file, unescape_twice_all. cbn [option_map].
  assert (U : unescape (flat_map spaced q) PathMode = Some q) by (apply unescape_flat; apply unescape_spaced).
  rewrite (Parse_path (flat_map spaced q) q); [|apply existsb_flat; intros; apply spaced_ctl|apply flat_free; apply spaced_question|apply flat_free; apply spaced_hash|subst q; rewrite spaced_slash; eauto|exact U].
  cbn [option_map]. unfold String_. cbn [u_path u_rawpath u_query u_fragment]. rewrite (escaped_raw _ _ U), valid_all, !app_nil_r.
  destruct (contains_byte q SPACE) eqn:C; cbn [negb]; [reflexivity|]. rewrite spaced_free; [reflexivity|].
  intros I. assert (contains_byte q SPACE = true); [|congruence]. unfold contains_byte. apply existsb_exists. exists SPACE. split; [exact I|reflexivity].
Qed.

(** the path as PathToURI splits it *)
Definition normal (path : gostr) : gostr :=
  map (fun c => if byte_eqb c BACKSLASH then SLASH else c) (trim_both (fun c => byte_eqb c SLASH) path).

Lemma escape_query_once : forall s, ~ In SLASH s -> QueryEscape s = flat_map once s.
Proof.
  unfold QueryEscape, escape. induction s as [|c s IH]; intros N; [reflexivity|]. simpl. rewrite IH by (intros I; apply N; now right).
  unfold once at 2. destruct (byte_eqb c SLASH) eqn:E; [|reflexivity]. apply Byte.byte_dec_bl in E. subst. exfalso. apply N. now left.
Qed.
Lemma join_once : forall parts, (forall p, In p parts -> ~ In SLASH p) -> join (map QueryEscape parts) [SLASH] = flat_map once (join parts [SLASH]).
Proof.
  induction parts as [|p parts IH]; intros H; [reflexivity|]. destruct parts as [|p' parts].
  - simpl. apply escape_query_once. apply H. now left.
  - change (join (map QueryEscape (p :: p' :: parts)) [SLASH]) with (QueryEscape p ++ [SLASH] ++ join (map QueryEscape (p' :: parts)) [SLASH]).
    change (join (p :: p' :: parts) [SLASH]) with (p ++ [SLASH] ++ join (p' :: parts) [SLASH]).
    rewrite IH by (intros x I; apply H; now right). rewrite !flat_map_app, (escape_query_once p) by (apply H; now left). reflexivity.
Qed.

Lemma indexed_eq : forall path, (forall s r, split_byte (normal path) SLASH <> (s ++ [COLON]) :: r) ->
  indexed_as path = Some (B "file://" ++ let q := SLASH :: normal path in if contains_byte q SPACE then escape q PathMode else encode q).
Proof.
  intros path ND. unfold indexed_as, PathToURI. fold (normal path). assert (J := join_split (normal path) SLASH). assert (F := split_byte_parts_free (normal path) SLASH).
  destruct (split_byte (normal path) SLASH) as [|first parts] eqn:S; [now apply split_byte_not_nil in S|].
  assert (has_suffix [COLON] first = false) as ->.
  { destruct (has_suffix [COLON] first) eqn:HS; [|reflexivity]. exfalso. unfold has_suffix in HS. apply andb_true_iff in HS as [L E]. apply str_eqb_true in E.
    apply (ND (firstn (length first - length [COLON]) first) parts).
    f_equal. transitivity (firstn (length first - length [COLON]) first ++ skipn (length first - length [COLON]) first); [symmetry; apply firstn_skipn|now rewrite E]. }
  change (QueryEscape first :: map QueryEscape parts) with (map QueryEscape (first :: parts)). rewrite join_once by exact F. rewrite J.
  change (SLASH :: flat_map once (normal path)) with (flat_map once (SLASH :: normal path)).
  unfold String_. cbn [u_path u_rawpath u_query u_fragment escaped]. rewrite !app_nil_r. rewrite decode_once by eauto. reflexivity.
Qed.

(** ** Paths *)
Lemma drop_same : forall (f : byte -> bool) c s, f c = false -> drop_while f (c :: s) = c :: s.
Proof. intros f c s H. simpl. now rewrite H. Qed.

Lemma byte_eqb_false : forall a b : byte, a <> b -> byte_eqb a b = false.
Proof. intros a b N. destruct (byte_eqb a b) eqn:E; [|reflexivity]. apply Byte.byte_dec_bl in E. contradiction. Qed.

Lemma last_byte : forall s : gostr, s <> [] -> exists s' c, s = s' ++ [c].
Proof. intros s N. destruct (exists_last N) as (s' & c & E). eauto. Qed.

Lemma path_last : forall names, names <> [] -> Forall file_name names -> exists p c, path_of names = p ++ [c] /\ c <> SLASH.
Proof.
  intros names N F. destruct (exists_last N) as (ns & s & ->). apply Forall_app in F as [_ F]. inversion_clear F as [|? ? FN _]. destruct FN as (NE & NS & _).
  destruct (last_byte s NE) as (s' & c & ->). exists (path_of ns ++ SLASH :: s'), c. split.
  - unfold path_of. rewrite flat_map_app. cbn [flat_map]. rewrite app_nil_r. change x2f with SLASH. rewrite <- app_assoc. reflexivity.
  - intros ->. apply NS. apply in_or_app. right. now left.
Qed.

Lemma path_no_backslash : forall names, Forall file_name names -> ~ In BACKSLASH (path_of names).
Proof.
  intros names F I. apply in_flat_map in I as (s & J & I). rewrite Forall_forall in F. destruct (F s J) as (_ & _ & N). destruct I as [I|I]; [discriminate|contradiction].
Qed.

Lemma normal_path : forall names, names <> [] -> Forall file_name names -> SLASH :: normal (path_of names) = path_of names.
Proof.
  intros names N F. destruct (path_last names N F) as (p & c & E & NC). assert (NB := path_no_backslash names F).
  destruct names as [|s names]; [contradiction|]. inversion_clear F as [|? ? FS FN]. destruct FS as (NE & NS & _). destruct s as [|a s]; [contradiction|].
  assert (NA : a <> SLASH) by (intros ->; apply NS; now left).
  remember (path_of _) as q eqn:P in *. assert (P' : q = SLASH :: a :: s ++ path_of names) by (rewrite P; reflexivity). clear P. rename P' into P.
  unfold normal, trim_both, trim_left, trim_right. rewrite P. cbn [drop_while]. change (byte_eqb SLASH SLASH) with true. cbn [drop_while].
  rewrite (byte_eqb_false a SLASH NA). rewrite P in E, NB.
  destruct p as [|x p]; [injection E as <- E; discriminate|]. injection E as <- E. rewrite E, rev_app_distr. cbn [rev app].
  rewrite drop_same by now apply byte_eqb_false. change (c :: rev p) with ([c] ++ rev p). rewrite rev_app_distr, rev_involutive. cbn [rev app].
  rewrite <- E. f_equal. rewrite <- (map_id (a :: s ++ path_of names)) at 2. apply map_ext_in. intros b I.
  rewrite byte_eqb_false; [reflexivity|]. intros ->. apply NB. now right.
Qed.

Lemma join_path : forall s names, SLASH :: join (s :: names) [SLASH] = path_of (s :: names).
Proof.
  intros s names. revert s. induction names as [|s' names IH]; intros s.
  - simpl. rewrite app_nil_r. reflexivity.
  - change (join (s :: s' :: names) [SLASH]) with (s ++ [SLASH] ++ join (s' :: names) [SLASH]).
    cbn [app]. rewrite IH. reflexivity.
Qed.
Lemma split_join : forall s names, (forall x, In x (s :: names) -> ~ In SLASH x) -> split_byte (join (s :: names) [SLASH]) SLASH = s :: names.
Proof.
  intros s names. revert s. induction names as [|s' names IH]; intros s H.
  - simpl. apply split_byte_none. apply H. now left.
  - change (join (s :: s' :: names) [SLASH]) with (s ++ SLASH :: join (s' :: names) [SLASH]).
    rewrite split_byte_app by (apply H; now left). rewrite IH; [reflexivity|]. intros x I. apply H. now right.
Qed.

Lemma indexed_path : forall names, names <> [] -> Forall file_name names -> no_drive names ->
  indexed_as (path_of names) = Some (B "file://" ++ if contains_byte (path_of names) SPACE then escape (path_of names) PathMode else encode (path_of names)).
Proof.
  intros names N F D. assert (NP := normal_path names N F). rewrite indexed_eq.
  - cbn zeta. rewrite NP. reflexivity.
  - intros s r. destruct names as [|n names]; [contradiction|].
    assert (E : normal (path_of (n :: names)) = join (n :: names) [SLASH]) by (rewrite <- join_path in NP at 2; injection NP; auto).
    rewrite E, split_join; [apply D|]. intros x I. rewrite Forall_forall in F. apply (F x I).
Qed.

(** ** Simple paths *)
Definition simple_byte (c : byte) : bool := existsb (byte_eqb c) literal || byte_eqb c SPACE || N.leb 128 (Byte.to_N c).
Lemma simple_bytes : forall p, simple p -> forall c, In c p -> simple_byte c = true.
Proof.
  intros p S c I. unfold simple_byte. destruct (S c I) as [L|[->|H]].
  - assert (existsb (byte_eqb c) literal = true) as ->; [|reflexivity]. apply existsb_exists. exists c. split; [exact L|]. now destruct c.
  - reflexivity.
  - apply N.leb_le in H. rewrite H. apply orb_true_r.
Qed.
Lemma flat_ext_in : forall (f g : byte -> gostr) s, (forall c, In c s -> f c = g c) -> flat_map f s = flat_map g s.
Proof. intros f g. induction s as [|c s IH]; intros H; [reflexivity|]. simpl. rewrite (H c (or_introl eq_refl)), IH; [reflexivity|]. intros; apply H; now right. Qed.
Lemma escape_simple : forall p, simple p -> escape p PathMode = encode p.
Proof.
  intros p S. apply flat_ext_in. intros c I. assert (SB := simple_bytes p S c I). clear - SB. destruct c; try reflexivity; discriminate SB.
Qed.
Lemma escape_mild : forall p, (forall c, In c p -> ~ In c (B "$&+,:;=@")) -> escape p PathMode = encode p.
Proof.
  intros p H. apply flat_ext_in. intros c I. assert (NI := H c I). clear - NI. destruct c; try reflexivity; exfalso; apply NI; cbn; tauto.
Qed.
Lemma simple_ctl : forall p, simple p -> existsb ctl p = false.
Proof.
  intros p S. destruct (existsb ctl p) eqn:E; [|reflexivity]. apply existsb_exists in E as (c & I & C). assert (SB := simple_bytes p S c I). clear - SB C.
  destruct c; discriminate.
Qed.
Lemma simple_not : forall p c, simple p -> simple_byte c = false -> ~ In c p.
Proof. intros p c S F I. rewrite (simple_bytes p S c I) in F. discriminate. Qed.

Lemma unescape_plain : forall m p, ~ In PERCENT p -> (m = QueryComponent -> ~ In PLUS p) -> unescape p m = Some p.
Proof.
  induction p as [|c p IH]; intros N P; [reflexivity|]. cbn [unescape]. rewrite byte_eqb_false by (intros ->; apply N; now left).
  rewrite IH; [|intros I; apply N; now right|intros E I; apply (P E); now right]. destruct m; cbn [option_map]; try reflexivity.
  rewrite byte_eqb_false; [reflexivity|]. intros ->. apply P; [reflexivity|now left].
Qed.

Lemma notified_simple : forall r, simple (SLASH :: r) -> notified_as (editor_uri (SLASH :: r)) = Some (editor_uri (SLASH :: r)).
Proof.
  intros r S. set (p := SLASH :: r) in *. unfold notified_as, DecodeURIFromQuery, QueryUnescape, editor_uri. rewrite unescape_file, unescape_encode. cbn [option_map].
  assert (U : unescape p PathMode = Some p) by (apply unescape_plain; [now apply simple_not|discriminate]).
  rewrite (Parse_path p p); [|now apply simple_ctl|now apply simple_not|now apply simple_not|unfold p; eauto|exact U].
  cbn [option_map]. unfold String_. cbn [u_path u_rawpath u_query u_fragment]. rewrite (escaped_raw _ _ U), !app_nil_r, (escape_simple p S).
  destruct (validEncoded p PathMode) eqn:V; [|reflexivity]. do 2 f_equal.
  unfold validEncoded in V. rewrite forallb_forall in V. unfold encode. rewrite <- (map_id p) at 1. rewrite <- flat_map_concat_map || idtac.
  transitivity (flat_map (fun c => [c]) p); [rewrite map_id; clear; induction p as [|c p IH]; [reflexivity|simpl; now rewrite <- IH]|].
  apply flat_ext_in. intros c I. assert (SB := simple_bytes p S c I). assert (VC := V c I). clear - SB VC. destruct c; try reflexivity; discriminate.
Qed.

Lemma enc_free : forall (b : byte) p, existsb (byte_eqb b) literal = false -> b <> PERCENT -> ~ In b (encode p).
Proof.
  intros b p L NP. apply flat_free. intros x I. fold (enc x) in I.
  assert (H : forallb (fun y => existsb (byte_eqb y) literal || byte_eqb y PERCENT) (enc x) = true) by (destruct x; reflexivity).
  rewrite forallb_forall in H. apply H in I. rewrite L, (byte_eqb_false b PERCENT NP) in I. discriminate.
Qed.
Lemma enc_ctl : forall p, existsb ctl (encode p) = false.
Proof. intros p. apply existsb_flat. intros x _. destruct x; reflexivity. Qed.

Lemma read_eq : forall r, let p := SLASH :: r in read_from (editor_uri p) =
  option_map (fun filePath => if contains_byte filePath COLON
                then map (fun c => if byte_eqb c SLASH then BACKSLASH else c) (trim_prefix filePath [SLASH]) else filePath) (QueryUnescape p).
Proof.
  intros r p. unfold read_from, URIToPath, editor_uri.
  rewrite (parse_path (encode p) p); [|apply enc_ctl|apply enc_free; [reflexivity|discriminate]|unfold p; cbn; eauto|apply unescape_encode].
  cbn [u_path]. destruct (QueryUnescape p); reflexivity.
Qed.
Lemma read_ok : forall r, let p := SLASH :: r in ~ In PLUS p -> ~ In PERCENT p -> ~ In COLON p -> read_from (editor_uri p) = Some p.
Proof.
  intros r p NP NQ NC. unfold p. rewrite read_eq. fold p. unfold QueryUnescape. rewrite unescape_plain by auto. cbn [option_map].
  destruct (contains_byte p COLON) eqn:E; [|reflexivity]. unfold contains_byte in E. apply existsb_exists in E as (c & I & E). apply Byte.byte_dec_bl in E. subst. contradiction.
Qed.

Lemma editor_uri_injective : forall p p', editor_uri p = editor_uri p' -> p = p'.
Proof.
  intros p p' E. unfold editor_uri in E. apply app_inv_head in E. assert (U := unescape_encode PathMode p). rewrite E, unescape_encode in U. congruence.
Qed.
