From Coq Require Import String.
From Coq Require Import List Bool ZArith Lia.
From Coq.Strings Require Import Byte.
From Verif Require Import Base.Bytes Base.BytesProofs Base.Protocol Symbols.Symbols Symbols.KeysModel Types.TypesModel Types.TypesSpec
  Types.TypesProofs Types.ImportModel Types.ImportSpec.
Import ListNotations.
Open Scope list_scope.

(** ** Maps *)
Lemma am_get_set : forall m a i b, am_get (am_set m a i) b = if str_eqb a b then Some i else am_get m b.
Proof.
  induction m as [|[c j] m IH]; intros a i b; cbn [am_set am_get]; [reflexivity|].
  destruct (str_eqb_spec c a) as [->|N]; cbn [am_get].
  - destruct (str_eqb a b); reflexivity.
  - rewrite IH. destruct (str_eqb_spec c b) as [->|N2]; [|reflexivity].
    destruct (str_eqb_spec a b); [congruence|reflexivity].
Qed.

Lemma am_set_keys : forall m a i, map fst (am_set m a i) = if existsb (str_eqb a) (map fst m) then map fst m else map fst m ++ [a].
Proof.
  induction m as [|[c j] m IH]; intros a i; cbn [am_set map fst existsb app]; [reflexivity|].
  rewrite (str_eqb_sym a c). destruct (str_eqb_spec c a) as [->|N]; cbn [map fst orb]; [reflexivity|].
  rewrite IH. destruct (existsb _ _); reflexivity.
Qed.

Lemma am_set_nodup : forall m a i, NoDup (map fst m) -> NoDup (map fst (am_set m a i)).
Proof.
  intros m a i ND. rewrite am_set_keys. destruct (existsb (str_eqb a) (map fst m)) eqn:E; [exact ND|].
  rewrite <- (rev_involutive (_ ++ _)). apply NoDup_rev. rewrite rev_app_distr. cbn. constructor; [|now apply NoDup_rev].
  rewrite <- in_rev. intros I. apply existsb_in in I. congruence.
Qed.

Lemma am_use_nodup : forall m a, NoDup (map fst m) -> NoDup (map fst (am_use m a)).
Proof. intros m a ND. unfold am_use. destruct (am_get m a); [now apply am_set_nodup|exact ND]. Qed.

Lemma am_get_in : forall m a i, NoDup (map fst m) -> (am_get m a = Some i <-> In (a, i) m).
Proof.
  induction m as [|[c j] m IH]; intros a i ND; cbn [am_get map fst] in *; [split; [discriminate|intros []]|].
  inversion ND as [|? ? N ND' E]; subst. destruct (str_eqb_spec c a) as [->|NE].
  - split; [intros [= ->]; left; reflexivity|]. intros [[= ->]|I]; [reflexivity|].
    exfalso. apply N. apply (in_map fst) in I. exact I.
  - rewrite IH by assumption. split; [right; assumption|]. intros [[= -> _]|I]; [congruence|exact I].
Qed.

Lemma am_values : forall m i, NoDup (map fst m) -> (In i (map snd m) <-> exists a, am_get m a = Some i).
Proof.
  intros m i ND. rewrite in_map_iff. split.
  - intros ([a j] & <- & I). exists a. apply am_get_in; assumption.
  - intros (a & E). apply am_get_in in E; [|exact ND]. exists (a, i). auto.
Qed.

(** ** Names *)
Lemma join_cons : forall p q ps c, join (p :: q :: ps) [c] = p ++ c :: join (q :: ps) [c].
Proof. reflexivity. Qed.

Lemma text_no_bracket : forall ps, (forall p, In p ps -> identifier p) -> ~ In x5d (join ps [BSL]).
Proof.
  induction ps as [|p ps IH]; intros H; [intros []|]. destruct ps as [|q ps].
  - apply (H p). left. reflexivity.
  - rewrite join_cons. intros I. apply in_app_or in I as [I|[I|I]].
    + revert I. apply (H p). left. reflexivity.
    + discriminate.
    + revert I. apply IH. intros x Ix. apply H. right. exact Ix.
Qed.

Lemma valid_parts : forall n, valid n -> forall p, In p (first n :: rest n) -> identifier p.
Proof. intros n [V1 V2] p [<-|I]; [exact V1|now apply V2]. Qed.

Lemma relative_split : forall n, valid n -> split_byte (relative_text n) BSL = first n :: rest n.
Proof. intros n V. apply split_join; [discriminate|]. intros p I. apply (valid_parts n V p I). Qed.

Lemma relative_cons : forall n, valid n -> exists b r, relative_text n = b :: r /\ b <> BSL.
Proof.
  intros n V. destruct (valid_parts n V (first n) (or_introl eq_refl)) as (NE & NB & _).
  unfold relative_text. destruct (first n) as [|b p] eqn:E; [congruence|]. exists b.
  assert (b <> BSL) by (intros ->; apply NB; left; reflexivity).
  destruct (rest n) as [|q ps]; [exists p; auto|]. rewrite join_cons. eexists. split; [reflexivity|assumption].
Qed.

Lemma valid_type : forall n, valid n -> ~ builtin (text n) -> NewTypeString (text n) = Some (TS (text n) (text n) 0).
Proof.
  intros n V NB. assert (NI : ~ In x5d (text n)).
  { assert (H := text_no_bracket _ (valid_parts n V)). fold (relative_text n) in H. unfold text. destruct (absolute n); [|exact H].
    intros [I|I]; [discriminate|contradiction]. }
  assert (E := NewTypeString_spec (text n) 0). cbn [arrays] in E. rewrite app_nil_r in E. rewrite E.
  - destruct (relative_cons n V) as (b & r & R & _). destruct (text n) as [|c t] eqn:T.
    + unfold text in T. rewrite R in T. destruct (absolute n); discriminate.
    + destruct (str_eqb_spec (c :: t) (B "]")) as [H|_]; [exfalso; apply NI; rewrite H; left; reflexivity|].
      rewrite canonical_other; [reflexivity|]. intros A. apply NB. unfold builtin. apply existsb_in. destruct A as [H|H]; rewrite H; reflexivity.
  - intros p H. apply NI. rewrite H. apply in_or_app. right. right. left. reflexivity.
Qed.

Lemma valid_split : forall n, valid n -> GetFirstAndRestParts (TS (text n) (text n) 0) = (first n, rest n).
Proof.
  intros n V. unfold GetFirstAndRestParts, GetParts, text. cbn [ts_fqn].
  assert (NE : first n <> []) by (destruct V as ((NE & _) & _); exact NE). destruct (absolute n).
  - cbn [split_byte]. rewrite byte_eqb_refl, relative_split by assumption. reflexivity.
  - rewrite relative_split by assumption. destruct (first n); [congruence|reflexivity].
Qed.

Lemma natives_builtin : forall s, existsb (str_eqb s) Natives = true -> builtin s.
Proof.
  intros s H. apply existsb_in in H. unfold builtin. unfold Natives in H. cbn [map In] in H |- *. tauto.
Qed.

Lemma valid_fqn : forall n, valid n -> ~ builtin (text n) -> IsFQN (text n) = absolute n.
Proof.
  intros n V NB. destruct (relative_cons n V) as (b & r & R & Nb). unfold IsFQN.
  destruct (existsb (str_eqb (text n)) Natives) eqn:E; [apply natives_builtin in E; contradiction|].
  destruct (text n) as [|c t] eqn:T; unfold text in T; rewrite R in T.
  - destruct (absolute n); discriminate.
  - destruct (absolute n); injection T as <- <-; [now rewrite byte_eqb_refl|]. now apply byte_eqb_neq.
Qed.

Lemma placed : forall n ns, valid n -> ~ builtin (text n) ->
  ts_fqn (SetNamespace (TS (text n) (text n) 0) ns) = if absolute n then text n else in_namespace ns n.
Proof.
  intros n ns V NB. unfold SetNamespace. cbn [ts_fqn]. rewrite valid_fqn by assumption. destruct (absolute n) eqn:A; [reflexivity|].
  unfold in_namespace, text. rewrite A. destruct ns; reflexivity.
Qed.

(** ** Tables *)
Definition table_of (i : ImportTable) (k : use_kind) : alias_map :=
  match k with UseClass => classes i | UseFunction => functions i | UseConst => constants i end.

Lemma bound_alias : forall u, decl_ok u -> makeSureAliasIsNotEmpty (match u_alias u with Some a => a | None => [] end) (u_name u) = bound_name u.
Proof.
  intros u D. unfold bound_name, makeSureAliasIsNotEmpty. destruct (u_alias u) as [a|] eqn:E; [|reflexivity].
  destruct a; [exfalso; apply D; exact E|reflexivity].
Qed.

Definition item_of (u : use_decl) (used : bool) : importItem := Item (u_name u) (u_range u) used.

Lemma add_use_get : forall i u k a, decl_ok u ->
  am_get (table_of (add_use i u) k) a = if same_kind (u_kind u) k && str_eqb (bound_name u) a then Some (item_of u false) else am_get (table_of i k) a.
Proof.
  intros i u k a D. unfold add_use, addUseToImportTable. destruct (u_kind u), k; cbn [same_kind andb table_of addClassName addFunctionName addConstName classes functions constants];
    try reflexivity; rewrite bound_alias by assumption; apply am_get_set.
Qed.

Lemma add_use_namespace : forall i u, GetNamespace (add_use i u) = GetNamespace i.
Proof. intros i u. unfold add_use, addUseToImportTable. destruct (u_kind u); reflexivity. Qed.

Definition exact_bound (uses : list use_decl) (k : use_kind) (a : gostr) : option use_decl :=
  find (fun u => same_kind (u_kind u) k && str_eqb (bound_name u) a) (rev uses).

Lemma fold_imports : forall uses i k a, Forall decl_ok uses ->
  am_get (table_of (fold_left add_use uses i) k) a =
    match exact_bound uses k a with Some u => Some (item_of u false) | None => am_get (table_of i k) a end
  /\ GetNamespace (fold_left add_use uses i) = GetNamespace i.
Proof.
  induction uses as [|u uses IH]; intros i k a D; [split; reflexivity|]. inversion D as [|? ? D1 D2]; subst.
  cbn [fold_left]. destruct (IH (add_use i u) k a D2) as [E1 E2]. rewrite E1, E2, add_use_namespace. split; [|reflexivity].
  unfold exact_bound. cbn [rev]. rewrite add_use_get by assumption.
  assert (F : forall l, find (fun u => same_kind (u_kind u) k && str_eqb (bound_name u) a) (l ++ [u]) =
    match find (fun u => same_kind (u_kind u) k && str_eqb (bound_name u) a) l with
    | Some x => Some x
    | None => if same_kind (u_kind u) k && str_eqb (bound_name u) a then Some u else None end).
  { induction l as [|x l IHl]; [reflexivity|]. cbn [app find]. destruct (same_kind (u_kind x) k && str_eqb (bound_name x) a); [reflexivity|]. exact IHl. }
  rewrite F. destruct (find _ (rev uses)); [reflexivity|]. destruct (_ && _); reflexivity.
Qed.

Lemma imports_get : forall pos ns uses k a, Forall decl_ok uses ->
  am_get (table_of (imports pos ns uses) k) a = option_map (fun u => item_of u false) (exact_bound uses k a).
Proof.
  intros. unfold imports. destruct (fold_imports uses (setNamespace (newImportTable pos) ns) k a) as [E _]; [assumption|].
  rewrite E. destruct (exact_bound uses k a); [reflexivity|]. destruct k; reflexivity.
Qed.

Lemma imports_namespace : forall pos ns uses, Forall decl_ok uses -> GetNamespace (imports pos ns uses) = ns.
Proof.
  intros. unfold imports. destruct (fold_imports uses (setNamespace (newImportTable pos) ns) UseClass []) as [_ E]; [assumption|]. exact E.
Qed.

Lemma exact_php : forall uses k a, spelled_alike uses a -> exact_bound uses k a = php_bound uses k a.
Proof.
  intros uses k a S. unfold exact_bound, php_bound. assert (H : forall u, In u (rev uses) -> In u uses) by (intros u; apply in_rev).
  induction (rev uses) as [|u l IH]; [reflexivity|]. cbn [find].
  assert (E : same_name k (bound_name u) a = str_eqb (bound_name u) a).
  { destruct k; cbn [same_name]; try reflexivity.
    - destruct (str_eqb_spec (bound_name u) a) as [->|N]; [apply str_eqb_refl|]. apply str_eqb_neq. intros L. apply N. apply S; [apply H; left; reflexivity|exact L].
    - destruct (str_eqb_spec (bound_name u) a) as [->|N]; [apply str_eqb_refl|]. apply str_eqb_neq. intros L. apply N. apply S; [apply H; left; reflexivity|exact L]. }
  rewrite E, IH; [reflexivity|]. intros v I. apply H. right. exact I.
Qed.

Lemma table_classes : forall i, classes i = table_of i UseClass. Proof. reflexivity. Qed.
Lemma table_functions : forall i, functions i = table_of i UseFunction. Proof. reflexivity. Qed.
Lemma table_constants : forall i, constants i = table_of i UseConst. Proof. reflexivity. Qed.

(** ** Marking imports as used *)
Lemma am_use_get : forall m a b, am_get (am_use m a) b =
  if str_eqb a b then option_map (fun i => Item (it_name i) (it_range i) true) (am_get m b) else am_get m b.
Proof.
  intros m a b. unfold am_use. destruct (str_eqb_spec a b) as [->|N].
  - destruct (am_get m b) as [i|] eqn:E; [rewrite am_get_set, str_eqb_refl; reflexivity|rewrite E; reflexivity].
  - destruct (am_get m a) as [i|]; [|reflexivity]. rewrite am_get_set. apply str_eqb_neq in N. rewrite N. reflexivity.
Qed.

(** the alias a reference is looked up under by phpintel (absolute or not) *)
Definition looked_up (c : code) : option (use_kind * gostr) :=
  let via k n := Some (match rest n with [] => k | _ => UseClass end, first n) in
  match c with
  | CUse _ => None
  | CClass n => via UseClass n
  | CCall n => via UseFunction n
  | CConstant n => via UseConst n
  end.

Definition mark (i : ImportTable) (k : use_kind) (a : gostr) : ImportTable :=
  match k with UseClass => useClass i a | UseFunction => useFunction i a | UseConst => useConstant i a end.

Lemma am_use_none : forall m a, am_get m a = None -> am_use m a = m.
Proof. intros m a H. unfold am_use. now rewrite H. Qed.

Lemma analyse_step : forall i c, code_ok c ->
  analyse_code (Some i) c = Some (match c with CUse u => add_use i u | _ => match looked_up c with Some (k, a) => mark i k a | None => i end end).
Proof.
  intros i c OK. destruct c as [u|n|n|n]; cbn [analyse_code looked_up]; [reflexivity| | |]; destruct OK as [V NB]; rewrite valid_type by assumption; cbn [option_map].
  - unfold GetClassReferenceFQN. rewrite valid_split by assumption. destruct (am_get (classes i) (first n)) eqn:E; cbn [snd].
    + destruct (rest n); reflexivity.
    + replace (match rest n with [] => UseClass | _ => UseClass end) with UseClass by (destruct (rest n); reflexivity).
      cbn [mark]. unfold useClass. rewrite am_use_none by assumption. destruct i; reflexivity.
  - unfold useFunctionOrClass. rewrite valid_split by assumption. destruct (rest n); reflexivity.
  - unfold useConstOrClass. rewrite valid_split by assumption. destruct (rest n); reflexivity.
Qed.

(** the last import of an alias and whether it has been used since *)
Definition usage_step (k : use_kind) (a : gostr) (s : option (use_decl * bool)) (c : code) : option (use_decl * bool) :=
  match c with
  | CUse u => if same_kind (u_kind u) k && str_eqb (bound_name u) a then Some (u, false) else s
  | _ => match looked_up c with
         | Some (k', a') => if same_kind k' k && str_eqb a' a then option_map (fun p => (fst p, true)) s else s
         | None => s
         end
  end.
Definition usage (k : use_kind) (a : gostr) (block : list code) : option (use_decl * bool) := fold_left (usage_step k a) block None.

Lemma mark_get : forall i k a k' b, am_get (table_of (mark i k a) k') b =
  if same_kind k k' && str_eqb a b then option_map (fun i => Item (it_name i) (it_range i) true) (am_get (table_of i k') b) else am_get (table_of i k') b.
Proof. intros i k a k' b. destruct k, k'; cbn [mark table_of same_kind andb useClass useFunction useConstant classes functions constants]; try reflexivity; apply am_use_get. Qed.

Definition tables_nodup (i : ImportTable) : Prop := forall k, NoDup (map fst (table_of i k)).

Lemma add_use_nodup : forall i u, tables_nodup i -> tables_nodup (add_use i u).
Proof.
  intros i u H k. assert (Hk := H k). unfold add_use, addUseToImportTable. destruct (u_kind u), k; try exact Hk; apply am_set_nodup; exact Hk.
Qed.
Lemma mark_nodup : forall i k a, tables_nodup i -> tables_nodup (mark i k a).
Proof. intros i k a H k'. assert (Hk := H k'). destruct k, k'; try exact Hk; apply am_use_nodup; exact Hk. Qed.

Lemma analyse_usage : forall pos ns block, Forall code_ok block ->
  exists i, analyse_block pos ns block = Some i /\ tables_nodup i
    /\ forall k a, am_get (table_of i k) a = option_map (fun p => item_of (fst p) (snd p)) (usage k a block).
Proof.
  intros pos ns block OK. unfold analyse_block. revert OK.
  induction block as [|c block IH] using rev_ind; intros OK.
  - eexists. split; [reflexivity|]. split; [intros []; constructor|]. intros [] a; reflexivity.
  - apply Forall_app in OK as [OK1 OK2]. inversion OK2 as [|? ? OKc _]; subst. destruct (IH OK1) as (i & E & ND & G).
    rewrite fold_left_app. cbn [fold_left]. rewrite E. rewrite analyse_step by assumption. eexists. split; [reflexivity|].
    unfold usage. split.
    + destruct c as [u|n|n|n]; [now apply add_use_nodup| | |]; cbn [looked_up]; now apply mark_nodup.
    + intros k a. rewrite fold_left_app. cbn [fold_left]. fold (usage k a block). unfold usage_step. destruct c as [u|n|n|n].
      * rewrite add_use_get by exact OKc. rewrite G. destruct (_ && _); reflexivity.
      * cbn [looked_up]. rewrite mark_get, G. destruct (_ && _); [|reflexivity]. destruct (usage k a block) as [[v b]|]; reflexivity.
      * cbn [looked_up]. rewrite mark_get, G. destruct (_ && _); [|reflexivity]. destruct (usage k a block) as [[v b]|]; reflexivity.
      * cbn [looked_up]. rewrite mark_get, G. destruct (_ && _); [|reflexivity]. destruct (usage k a block) as [[v b]|]; reflexivity.
Qed.

Lemma same_kind_eq : forall a b, same_kind a b = true <-> a = b.
Proof. intros [] []; cbn; split; congruence. Qed.

Lemma usage_false : forall k a block u, usage k a block = Some (u, false) <->
  exists before after, block = before ++ CUse u :: after /\ u_kind u = k /\ bound_name u = a
    /\ (forall c, In c after -> looked_up c <> Some (k, a))
    /\ (forall v, In (CUse v) after -> u_kind v = k -> bound_name v <> a).
Proof.
  intros k a block u. unfold usage. split.
  - induction block as [|c block IH] using rev_ind; [discriminate|]. rewrite fold_left_app. cbn [fold_left]. fold (usage k a block) in *.
    intros H. assert (K : (c = CUse u /\ u_kind u = k /\ bound_name u = a) \/
      (usage k a block = Some (u, false) /\ looked_up c <> Some (k, a) /\ forall v, c = CUse v -> u_kind v = k -> bound_name v <> a)).
    { unfold usage_step in H. destruct c as [v|n|n|n].
      - destruct (same_kind (u_kind v) k && str_eqb (bound_name v) a) eqn:E.
        + injection H as ->. apply andb_true_iff in E as [E1 E2]. apply same_kind_eq in E1. apply str_eqb_eq in E2. auto.
        + right. split; [exact H|]. split; [discriminate|]. intros w [= <-] E1 E2. apply same_kind_eq in E1. apply str_eqb_eq in E2. rewrite E1, E2 in E. discriminate.
      - cbn [looked_up] in *. destruct (_ && _) eqn:E; [destruct (usage k a block) as [[w b]|]; discriminate|]. right. split; [exact H|].
        split; [|discriminate]. intros [= E1 E2]. apply same_kind_eq in E1. apply str_eqb_eq in E2. rewrite E1, E2 in E. discriminate.
      - cbn [looked_up] in *. destruct (_ && _) eqn:E; [destruct (usage k a block) as [[w b]|]; discriminate|]. right. split; [exact H|].
        split; [|discriminate]. intros [= E1 E2]. apply same_kind_eq in E1. apply str_eqb_eq in E2. rewrite E1, E2 in E. discriminate.
      - cbn [looked_up] in *. destruct (_ && _) eqn:E; [destruct (usage k a block) as [[w b]|]; discriminate|]. right. split; [exact H|].
        split; [|discriminate]. intros [= E1 E2]. apply same_kind_eq in E1. apply str_eqb_eq in E2. rewrite E1, E2 in E. discriminate. }
    destruct K as [(-> & E1 & E2)|(Hu & N1 & N2)].
    + exists block, []. repeat split; auto; intros ? [].
    + destruct (IH Hu) as (b & aft & -> & E1 & E2 & R & D). exists b, (aft ++ [c]). rewrite <- app_assoc. split; [reflexivity|].
      split; [exact E1|]. split; [exact E2|]. split.
      * intros x I. apply in_app_or in I as [I|[<-|[]]]; [now apply R|exact N1].
      * intros v I. apply in_app_or in I as [I|[E|[]]]; [now apply D|now apply N2].
  - intros (b & aft & -> & E1 & E2 & R & D). rewrite fold_left_app. cbn [fold_left]. 
    assert (S : usage_step k a (fold_left (usage_step k a) b None) (CUse u) = Some (u, false)).
    { unfold usage_step. apply same_kind_eq in E1. apply str_eqb_eq in E2. now rewrite E1, E2. }
    rewrite S. clear S. induction aft as [|c aft IH]; [reflexivity|]. cbn [fold_left].
    assert (S : usage_step k a (Some (u, false)) c = Some (u, false)).
    { assert (R0 := R c (or_introl eq_refl)). unfold usage_step. destruct c as [v|n|n|n].
      - destruct (_ && _) eqn:E; [|reflexivity]. apply andb_true_iff in E as [A1 A2]. apply same_kind_eq in A1. apply str_eqb_eq in A2.
        exfalso. apply (D v (or_introl eq_refl) A1 A2).
      - cbn [looked_up] in *. destruct (_ && _) eqn:E; [|reflexivity]. apply andb_true_iff in E as [A1 A2]. apply same_kind_eq in A1. apply str_eqb_eq in A2. congruence.
      - cbn [looked_up] in *. destruct (_ && _) eqn:E; [|reflexivity]. apply andb_true_iff in E as [A1 A2]. apply same_kind_eq in A1. apply str_eqb_eq in A2. congruence.
      - cbn [looked_up] in *. destruct (_ && _) eqn:E; [|reflexivity]. apply andb_true_iff in E as [A1 A2]. apply same_kind_eq in A1. apply str_eqb_eq in A2. congruence. }
    rewrite S. apply IH; intros; [apply R|apply D]; try (right; assumption); assumption.
Qed.

Lemma unused_items : forall i it, tables_nodup i -> (In it (unusedImportItems i) <-> it_used it = false /\ exists k a, am_get (table_of i k) a = Some it).
Proof.
  intros i it ND. unfold unusedImportItems. rewrite filter_In, !in_app_iff.
  rewrite (am_values (classes i) it (ND UseClass)), (am_values (functions i) it (ND UseFunction)), (am_values (constants i) it (ND UseConst)).
  split.
  - intros [H U]. split; [now destruct (it_used it)|]. destruct H as [[a H]|[[a H]|[a H]]]; [exists UseClass|exists UseFunction|exists UseConst]; exists a; exact H.
  - intros [U (k & a & H)]. split; [|rewrite U; reflexivity]. destruct k; eauto.
Qed.
