(** Claims about workspace folders, URIs and the server life cycle. *)
From Coq Require Import String.
From Coq Require Import List Bool Arith Lia.
From Coq.Strings Require Import Byte.
From Verif Require Import Base.Bytes Base.BytesProofs Store.StoreModel Server.WorkspaceModel Server.WorkspaceSpec.
Import ListNotations.
Open Scope list_scope.

(** ** C30 canonical URIs convert back *)
Lemma canonical_below : forall root rest, CanonicaliseURI root (root ++ rest) = rest.
Proof. intros. unfold CanonicaliseURI. apply trim_prefix_app. Qed.

(** For every root that does not itself begin with a slash (a URI begins with
    its scheme) and every file below it. *)
Theorem C30_round_trip : forall root file, (forall r, root <> x2f :: r) -> root <> [] -> contains root file ->
  URIFromCanonicalURI root (CanonicaliseURI root file) = file.
Proof.
  intros root file NS NE (rest & ->). rewrite canonical_below. unfold URIFromCanonicalURI.
  destruct root as [|b r]; [congruence|]. cbn [has_prefix]. destruct (byte_eqb b x2f) eqn:E; [|reflexivity].
  apply byte_eqb_eq in E. subst. exfalso. exact (NS r eq_refl).
Qed.
Print Assumptions C30_round_trip.

Theorem C30_distinct : forall root f g, contains root f -> contains root g ->
  CanonicaliseURI root f = CanonicaliseURI root g -> f = g.
Proof. intros root f g (r & ->) (r' & ->) E. rewrite !canonical_below in E. now rewrite E. Qed.
Print Assumptions C30_distinct.
Example C30_hypotheses_met : let root := B "file:///home/me/app" in let f := B "file:///home/me/app/src/a.php" in
  (forall r, root <> x2f :: r) /\ root <> [] /\ contains root f /\ CanonicaliseURI root f = B "/src/a.php".
Proof. cbv zeta. split; [intros r; discriminate|]. split; [discriminate|]. split; [exists (B "src/a.php")|]; reflexivity. Qed.

(** Without a scheme the conversion is ambiguous. *)
Theorem C30_plain_paths_refuted : exists root file, root <> [] /\ contains root file
  /\ URIFromCanonicalURI root (CanonicaliseURI root file) <> file.
Proof. exists (B "/a"), (B "/a/a/x"). split; [discriminate|]. split; [exists (B "a/x"); reflexivity|discriminate]. Qed.
Print Assumptions C30_plain_paths_refuted.

(** ** C48 a document is served by the folder that contains it *)
Lemma getStore_some : forall st u s, getStore st u = Some s -> In s st /\ has_prefix s u = true.
Proof.
  induction st as [|x st IH]; intros u s E; [discriminate|]. cbn in E. destruct (has_prefix x u) eqn:P.
  - injection E as <-. split; [left; reflexivity|exact P].
  - apply IH in E as [I P']. split; [right; exact I|exact P'].
Qed.
Lemma getStore_none : forall st u s, getStore st u = None -> In s st -> has_prefix s u = false.
Proof.
  induction st as [|x st IH]; intros u s E I; [destruct I|]. cbn in E. destruct (has_prefix x u) eqn:P; [discriminate|].
  destruct I as [<-|I]; [exact P|eauto].
Qed.
Lemma removeStore_in : forall st u s, NoDup st -> (In s (removeStore st u) <-> In s st /\ s <> u).
Proof.
  induction st as [|x st IH]; intros u s N; [cbn; tauto|]. inversion_clear N. cbn. destruct (str_eqb_spec x u) as [->|NE].
  - split; [intros I; split; [auto|]; intros ->; contradiction|]. intros [[E|I] NE]; [congruence|exact I].
  - cbn. rewrite IH by assumption. split; [intros [<-|[I NE']]; auto|]. intros [[E|I] NE']; auto.
Qed.
Lemma removeStore_nodup : forall st u, NoDup st -> NoDup (removeStore st u).
Proof.
  induction st as [|x st IH]; intros u N; [constructor|]. inversion_clear N. cbn. destruct (str_eqb_spec x u) as [->|NE]; [assumption|].
  constructor; [|auto]. rewrite removeStore_in by assumption. tauto.
Qed.
Lemma snoc_inj : forall (A : Type) (h h' : list A) x x', h ++ [x] = h' ++ [x'] -> h = h' /\ x = x'.
Proof. intros. now apply app_inj_tail. Qed.
Lemma open_nil : forall u, ~ is_open [] u.
Proof. intros u O. remember [] as l eqn:E. destruct O; destruct h; discriminate. Qed.
Lemma open_snoc_add : forall h v b u, is_open (h ++ [FolderAdded v b]) u -> is_open h u \/ (u = v /\ b = true).
Proof.
  intros h v b u O. remember (h ++ [FolderAdded v b]) as l eqn:E. destruct O as [h' u'|h' u' v' b' O'|h' u' v' NE O']; apply snoc_inj in E as [-> E].
  - injection E as <- <-. auto.
  - auto.
  - discriminate.
Qed.
Lemma open_snoc_remove : forall h v u, is_open (h ++ [FolderRemoved v]) u -> is_open h u /\ u <> v.
Proof.
  intros h v u O. remember (h ++ [FolderRemoved v]) as l eqn:E. destruct O as [h' u'|h' u' v' b' O'|h' u' v' NE O']; apply snoc_inj in E as [-> E]; try discriminate.
  injection E as <-. auto.
Qed.
Lemma open_in : forall h u, is_open h u -> exists e, In e h /\ event_uri e = u.
Proof.
  induction 1 as [h u|h u v b O (e & I & E)|h u v NE O (e & I & E)].
  - exists (FolderAdded u true). split; [apply in_or_app; right; left; reflexivity|reflexivity].
  - exists e. split; [apply in_or_app; auto|exact E].
  - exists e. split; [apply in_or_app; auto|exact E].
Qed.

Lemma folder_invariant : forall h, well_behaved h -> separate h ->
  NoDup (folder_run h) /\ forall u, In u (folder_run h) <-> is_open h u.
Proof.
  induction 1 as [|h u b W IH N|h u W IH O]; intros S.
  - split; [constructor|]. intros u. split; [intros []|]. intros O. now apply open_nil in O.
  - destruct IH as [ND IN]; [intros e e' I I'; apply S; apply in_or_app; auto|].
    unfold folder_run in *. rewrite fold_left_app. cbn [fold_left folder_step]. unfold addView. destruct b.
    + split.
      * rewrite <- (rev_involutive (_ ++ _)). apply NoDup_rev. rewrite rev_app_distr. cbn. constructor; [rewrite <- in_rev, IN; exact N|now apply NoDup_rev].
      * intros v. rewrite in_app_iff, IN. split.
        { intros [O|[<-|[]]]; [now constructor|constructor]. }
        { intros O. apply open_snoc_add in O as [O|[-> _]]; [auto|right; left; reflexivity]. }
    + split; [exact ND|]. intros v. rewrite IN. split; [intros O; now constructor|].
      intros O. apply open_snoc_add in O as [O|[_ E]]; [exact O|discriminate].
  - destruct IH as [ND IN]; [intros e e' I I'; apply S; apply in_or_app; auto|].
    unfold folder_run in *. rewrite fold_left_app. cbn [fold_left folder_step]. unfold removeView.
    assert (G : getStore (fold_left folder_step h []) u = Some u).
    { destruct (getStore (fold_left folder_step h []) u) as [s|] eqn:G.
      - apply getStore_some in G as [I P]. apply IN, open_in in I as (e & I & <-). apply open_in in O as (e' & I' & <-).
        f_equal. apply S; [apply in_or_app; auto|apply in_or_app; auto|exact P].
      - apply (getStore_none _ _ u) in G; [|now apply IN]. rewrite has_prefix_refl in G. discriminate. }
    rewrite G. split; [now apply removeStore_nodup|]. intros v. rewrite removeStore_in, IN by assumption. split.
    + intros [Ov NE]. now constructor.
    + apply open_snoc_remove.
Qed.

(** For every history of folder changes in which no folder name is the
    beginning of another one, and every file that is not a look-alike of a
    folder: the file is answered from an open folder that contains it, and it
    is attributed to none only if no open folder contains it. *)
Theorem C48_right_folder_partial : forall h file,
  well_behaved h -> separate h -> no_lookalike h file ->
  (forall u, getStore (folder_run h) file = Some u <-> is_open h u /\ contains u file)
  /\ (getStore (folder_run h) file = None <-> forall u, is_open h u -> ~ contains u file).
Proof.
  intros h file W S L. destruct (folder_invariant h W S) as [_ IN].
  assert (C : forall u, contains u file -> has_prefix u file = true) by (intros u (r & ->); apply has_prefix_app).
  assert (U : forall u v, is_open h u -> is_open h v -> has_prefix u file = true -> has_prefix v file = true -> u = v).
  { intros u v Ou Ov Pu Pv. apply open_in in Ou as (e & I & <-). apply open_in in Ov as (e' & I' & <-).
    apply has_prefix_spec in Pu as [x Ex]. apply has_prefix_spec in Pv as [y Ey].
    destruct (le_lt_dec (length (event_uri e)) (length (event_uri e'))) as [LE|LT].
    - apply S; auto. apply has_prefix_spec. exists (skipn (length (event_uri e)) (event_uri e')).
      assert (F : firstn (length (event_uri e)) file = event_uri e) by (rewrite Ex, firstn_app, Nat.sub_diag, firstn_all, app_nil_r; reflexivity).
      rewrite Ey, firstn_app in F. replace (length (event_uri e) - length (event_uri e')) with 0 in F by lia. cbn [firstn] in F. rewrite app_nil_r in F.
      rewrite <- F at 1. symmetry. apply firstn_skipn.
    - symmetry. apply S; auto. apply has_prefix_spec. exists (skipn (length (event_uri e')) (event_uri e)).
      assert (F : firstn (length (event_uri e')) file = event_uri e') by (rewrite Ey, firstn_app, Nat.sub_diag, firstn_all, app_nil_r; reflexivity).
      rewrite Ex, firstn_app in F. replace (length (event_uri e') - length (event_uri e)) with 0 in F by lia. cbn [firstn] in F. rewrite app_nil_r in F.
      rewrite <- F at 1. symmetry. apply firstn_skipn. }
  split.
  - intros u. split.
    + intros G. apply getStore_some in G as [I P]. apply IN in I. split; [exact I|]. destruct (open_in _ _ I) as (e & Ie & <-). now apply L.
    + intros [O CO]. destruct (getStore (folder_run h) file) as [v|] eqn:G.
      * apply getStore_some in G as [I P]. f_equal. apply U; auto. now apply IN.
      * apply (getStore_none _ _ u) in G; [|now apply IN]. rewrite C in G by assumption. discriminate.
  - split.
    + intros G u O CO. apply (getStore_none _ _ u) in G; [|now apply IN]. rewrite C in G by assumption. discriminate.
    + intros N. destruct (getStore (folder_run h) file) as [v|] eqn:G; [|reflexivity].
      apply getStore_some in G as [I P]. apply IN in I. destruct (open_in _ _ I) as (e & Ie & <-). exfalso. apply (N _ I). now apply L.
Qed.
Print Assumptions C48_right_folder_partial.

Definition two_folders : list folder_event :=
  (([] ++ [FolderAdded (B "file:///app") true]) ++ [FolderAdded (B "file:///lib") true]) ++ [FolderRemoved (B "file:///app")].
Example C48_hypotheses_met : well_behaved two_folders /\ separate two_folders
  /\ no_lookalike two_folders (B "file:///lib/x.php")
  /\ getStore (folder_run two_folders) (B "file:///lib/x.php") = Some (B "file:///lib")
  /\ getStore (folder_run two_folders) (B "file:///app/x.php") = None.
Proof.
  assert (O1 : is_open ([] ++ [FolderAdded (B "file:///app") true]) (B "file:///app")) by constructor.
  split; [|split; [|split; [|split; reflexivity]]].
  - apply wb_remove; [apply wb_add; [apply wb_add; [constructor|]|]|].
    + apply open_nil.
    + intros O. apply open_snoc_add in O as [O|[E _]]; [now apply open_nil in O|discriminate].
    + now constructor.
  - intros e e' I I' P. cbn in I, I'. repeat destruct I as [<-|I]; repeat destruct I' as [<-|I']; try contradiction; try reflexivity; discriminate.
  - intros e I P. cbn in I. repeat destruct I as [<-|I]; try contradiction; try discriminate. exists (B "x.php"). reflexivity.
Qed.

(** A folder whose name merely begins like the file's folder gets the file. *)
Theorem C48_lookalike_refuted : exists h file u, well_behaved h /\ separate h
  /\ getStore (folder_run h) file = Some u /\ ~ contains u file.
Proof.
  exists ([] ++ [FolderAdded (B "file:///app") true]), (B "file:///app2/x.php"), (B "file:///app"). split; [|split; [|split; [reflexivity|]]].
  - apply wb_add; [constructor|]. apply open_nil.
  - intros e e' [<-|[]] [<-|[]] _. reflexivity.
  - intros (r & E). discriminate.
Qed.
Print Assumptions C48_lookalike_refuted.

(** Removing a nested folder removes the outer one instead. *)
Theorem C48_nested_refuted : exists h u v, is_open h u /\ ~ is_open h v
  /\ ~ In u (folder_run h) /\ In v (folder_run h).
Proof.
  exists ((([] ++ [FolderAdded (B "file:///app") true]) ++ [FolderAdded (B "file:///app/sub") true]) ++ [FolderRemoved (B "file:///app/sub")]),
    (B "file:///app"), (B "file:///app/sub").
  split; [constructor; [discriminate|constructor; constructor]|]. split.
  - intros O. apply open_snoc_remove in O as [_ NE]. congruence.
  - split; [|left; reflexivity]. intros [E|[]]. discriminate.
Qed.
Print Assumptions C48_nested_refuted.

(** ** C47 the life cycle never deadlocks *)
(** the request asks to initialise again *)
Definition initialise_again (before : list lifecycle_request) (r : lifecycle_request) : Prop :=
  (exists b, r = Initialize b) /\ exists q, In q before /\ (q = Initialized \/ exists b, q = Initialize b).

(** Exactly when a request follows a repeated [initialize], it is never
    answered. *)
Theorem C47_blocks_exactly : forall rs,
  serve new_server rs = None <-> exists before r next after, rs = before ++ r :: next :: after /\ initialise_again before r.
Proof.
  assert (G : forall rs sv seen,
    (forall q, In q seen -> q = Shutdown \/ (1 <= state_no (sv_state sv))) ->
    ((1 <= state_no (sv_state sv)) -> exists q, In q seen /\ (q = Initialized \/ exists b, q = Initialize b)) ->
    sv_locked sv = false ->
    (serve sv rs = None <-> exists before r next after, rs = before ++ r :: next :: after /\ initialise_again (seen ++ before) r)).
  { induction rs as [|r rs IH]; intros sv seen H1 H2 L.
    - split; [discriminate|]. intros (before & r & next & after & E & _). destruct before; discriminate.
    - cbn [serve].
      assert (STEP : forall sv' a, handle sv r = Some (sv', a) -> sv_locked sv' = false ->
                (serve sv' rs = None <-> exists before r' next after, rs = before ++ r' :: next :: after /\ initialise_again ((seen ++ [r]) ++ before) r') ->
                ~ initialise_again seen r ->
                (match handle sv r with None => None | Some (sv', a) => match serve sv' rs with None => None | Some (sv'', l) => Some (sv'', a :: l) end end = None
                 <-> exists before r' next after, r :: rs = before ++ r' :: next :: after /\ initialise_again (seen ++ before) r')).
      { intros sv' a E L' HI NA. rewrite E. split.
        - destruct (serve sv' rs) as [[sv'' l]|] eqn:SE; [discriminate|]. intros _. destruct (proj1 HI eq_refl) as (before & r' & next & after & -> & A). exists (r :: before), r', next, after. split; [reflexivity|].
          rewrite <- app_assoc in A. exact A.
        - intros (before & r' & next & after & E' & A). destruct before as [|x before].
          + cbn in E'. injection E' as <- ->. rewrite app_nil_r in A. contradiction.
          + cbn in E'. injection E' as <- ->. assert (S : serve sv' (before ++ r' :: next :: after) = None).
            { apply HI. exists before, r', next, after. split; [reflexivity|]. rewrite <- app_assoc. exact A. }
            rewrite S. reflexivity. }
      unfold handle in *. rewrite L in *. destruct r as [b| |].
      + destruct (Nat.leb_spec 1 (state_no (sv_state sv))) as [LE|LT].
        * (* repeated *)
          clear STEP. destruct rs as [|n rs].
          { split; [discriminate|]. intros (before & r & next & after & E & _). destruct before as [|x [|y before]]; discriminate. }
          { split; [|intros _; reflexivity]. intros _. exists [], (Initialize b), n, rs. split; [reflexivity|]. rewrite app_nil_r. split; [eauto|auto]. }
        * assert (HI : forall s, s = Server serverInitializing false -> (serve s rs = None <-> exists before r' next after, rs = before ++ r' :: next :: after /\ initialise_again ((seen ++ [Initialize b]) ++ before) r')).
          { intros s ->. apply IH; [intros q I; right; cbn; lia|intros _; exists (Initialize b); split; [apply in_or_app; right; left; reflexivity|eauto]|reflexivity]. }
          destruct b; (eapply STEP; [reflexivity|reflexivity|apply HI; reflexivity|]).
          all: intros (_ & q & I & Q); destruct (H1 q I) as [->|]; [destruct Q as [Q|[? Q]]; discriminate|lia].
      + eapply STEP; try reflexivity.
        * apply IH; [intros q I; right; cbn; lia|intros _; exists Initialized; split; [apply in_or_app; right; left; reflexivity|auto]|reflexivity].
        * intros ([b E] & _). discriminate.
      + destruct (Nat.ltb_spec (state_no (sv_state sv)) 2) as [LT|GE]; (eapply STEP; try reflexivity; [exact L| |intros ([b E] & _); discriminate]).
        all: apply IH; [|intros H; destruct (H2 H) as (q & I & Q); exists q; split; [apply in_or_app; auto|exact Q]|exact L].
        all: intros q I; apply in_app_or in I as [I|[<-|[]]]; auto. }
  intros rs. apply (G rs new_server []); [intros q []|cbn; lia|reflexivity].
Qed.
Print Assumptions C47_blocks_exactly.

(** All requests are answered if the server is initialised at most once. *)
Theorem C47_answers_partial : forall rs,
  (forall before r after, rs = before ++ r :: after -> ~ initialise_again before r) ->
  exists sv l, serve new_server rs = Some (sv, l) /\ length l = length rs.
Proof.
  intros rs N. destruct (serve new_server rs) as [[sv l]|] eqn:E.
  - exists sv, l. split; [reflexivity|]. clear N. revert sv l E. generalize new_server. induction rs as [|r rs IH]; intros sv0 sv l E.
    + cbn in E. injection E as <- <-. reflexivity.
    + cbn in E. destruct (handle sv0 r) as [[sv' a]|]; [|discriminate]. destruct (serve sv' rs) as [[sv'' l']|] eqn:E'; [|discriminate].
      injection E as <- <-. cbn. f_equal. eapply IH. exact E'.
  - apply C47_blocks_exactly in E as (before & r & next & after & -> & A). exfalso. exact (N before r _ eq_refl A).
Qed.
Print Assumptions C47_answers_partial.
Example C47_hypotheses_met : let rs := [Initialize true; Initialized; Shutdown] in
  (forall before r after, rs = before ++ r :: after -> ~ initialise_again before r)
  /\ exists sv, serve new_server rs = Some (sv, [Ok; Ok; Ok]).
Proof.
  cbv zeta. split; [|eexists; reflexivity]. intros before r after E ([b ->] & q & I & _).
  destruct before as [|x before]; [destruct I|]. injection E as <- E.
  destruct before as [|y before]; [discriminate|]. injection E as <- E. destruct before as [|z before]; [discriminate|]. injection E as <- E. destruct before; discriminate.
Qed.

Theorem C47_second_initialize_refuted : exists rs, serve new_server rs = None.
Proof. exists [Initialize true; Initialized; Initialize true; Shutdown]. reflexivity. Qed.
Print Assumptions C47_second_initialize_refuted.
