(** Rules for runs of the analysis. *)
From Coq Require Import String.
From Coq Require Import List Bool ZArith Lia Sorting.Sorted.
From Coq.Strings Require Import Byte.
From Verif Require Import Base.Bytes Base.Protocol Symbols.Symbols Symbols.KeysModel Text.TextModel Text.PositionSpec
  Types.TypesModel Types.ImportModel Ide.VariableModel Rpc.StreamModel Analyse.SyntaxModel Analyse.AnalyseModel Analyse.AnalyseSpec.
Import ListNotations.
Open Scope list_scope.
Open Scope nat_scope.

(** ** Trees *)
Section NodeInd.
Variable P : node -> Prop.
Hypothesis H_ph : forall ty kids, Forall P kids -> P (Ph ty kids).
Hypothesis H_tk : forall t, P (Tk t).
Hypothesis H_err : forall u, P (Err u).
Fixpoint node_ind' (n : node) : P n :=
  match n with
  | Ph ty kids => H_ph ty kids ((fix all (l : list node) : Forall P l :=
      match l with [] => Forall_nil P | k :: l => Forall_cons k (node_ind' k) (all l) end) kids)
  | Tk t => H_tk t
  | Err u => H_err u
  end.
End NodeInd.

Lemma below_trans : forall a b c, below a b -> below b c -> below a c.
Proof. intros a b c AB BC. induction BC as [|m k n I B IH]; [exact AB|]. exact (below_kid _ _ _ I (IH AB)). Qed.
Lemma below_child : forall ty kids k, In k kids -> below k (Ph ty kids).
Proof. intros ty kids k I. exact (below_kid k k (Ph ty kids) I (below_here k)). Qed.
Lemma kid_height : forall ty kids k, In k kids -> height k < height (Ph ty kids).
Proof.
  intros ty kids k I. cbn [height]. enough (height k <= fold_right (fun k h => Nat.max (height k) h) 0 kids) by lia.
  induction kids as [|x kids IH]; [destruct I|]. cbn. destruct I as [->|I]; [lia|]. specialize (IH I). lia.
Qed.
Lemma below_height : forall a b, below a b -> height a <= height b.
Proof.
  intros a b B. induction B as [|m k n I B IH]; [lia|]. destruct n as [ty kids|t|u]; cbn [node_kids] in I; try (destruct I; fail).
  pose proof (kid_height ty kids k I). lia.
Qed.
Lemma height_pos : forall n, 1 <= height n.
Proof. destruct n; cbn; lia. Qed.

(** [m] is in the tree [n], further down *)
Definition inside_of (m n : node) : Prop := below m n /\ height m < height n.
Lemma inside_kid : forall ty kids k, In k kids -> inside_of k (Ph ty kids).
Proof. intros ty kids k I. split; [exact (below_child ty kids k I)|exact (kid_height ty kids k I)]. Qed.
Lemma inside_deeper : forall ty kids k m, In k (node_kids m) -> inside_of m (Ph ty kids) -> inside_of k (Ph ty kids).
Proof.
  intros ty kids k m I (B & H). destruct m as [ty' ks|t|u]; cbn [node_kids] in I; try (destruct I; fail). split.
  - exact (below_trans _ _ _ (below_child ty' ks k I) B).
  - pose proof (kid_height ty' ks k I). lia.
Qed.

Section Run.
Context {TX : Text} {TR : TrimSpace} (d : document).
Notation root := (d_root d).
Definition safe : Prop := well_parsed TR d.
Definition types_ok (s : gostr) : Prop := Forall (fun part => is_type_text (trim_space part)) (split_byte s x7c).
Definition tag_ok (t : tag) : Prop := types_ok (tg_types t) /\ Forall (fun q => types_ok (snd q)) (tg_params t).
Definition is_comment (r : range) : Prop := exists n, below n root /\ node_type n = Some PhDocumentComment /\ r = NodeRange d n.
Definition doc_ok (p : php_doc) : Prop := is_comment (pd_range p) /\ (safe -> Forall tag_ok (pd_tags p)).
Definition Inv (s : state) : Prop := forall p, st_doc s = Some p -> doc_ok p.

Definition core (c : class_info) : akind * type_string * range * list type_string := (c_kind c, c_name c, c_range c, c_extends c).
Definition place (c : class_info) : akind * range := (c_kind c, c_range c).
(** no class goes, its kind and range stay, and the name and what it extends for the first [k] *)
Definition keep (k : nat) (s s' : state) : Prop :=
  length (st_classes s) <= length (st_classes s') /\
  (forall i, i < k -> option_map core (nth_error (st_classes s') i) = option_map core (nth_error (st_classes s) i)) /\
  (forall i, i < length (st_classes s) -> option_map place (nth_error (st_classes s') i) = option_map place (nth_error (st_classes s) i)).
Definition class_like (n : node) : bool :=
  match n with
  | Ph (PhClassDeclaration | PhInterfaceDeclaration | PhTraitDeclaration | PhAnonymousClassDeclaration) _ => true
  | _ => false
  end.
Definition is_namespace (n : node) : bool := match n with Ph PhNamespaceDefinition _ => true | _ => false end.
Definition without (f : node -> bool) (n : node) : Prop := forall m, below m n -> f m = false.
Lemma without_below : forall f m n, without f n -> below m n -> without f m.
Proof. intros f m n W B x X. exact (W x (below_trans _ _ _ X B)). Qed.
Definition current_table (s : state) : option ImportTable := nth_error (st_imports s) (length (st_imports s) - 1).
Definition current_ns (s : state) : gostr := match current_table s with Some t => GetNamespace t | None => [] end.

Definition Post (n : node) (k : nat) (s s' : state) : Prop :=
  (exists new, st_out s' = st_out s ++ new /\ Forall (comes_from d n) new) /\
  keep k s s' /\ length (st_imports s) <= length (st_imports s') /\
  (without class_like n -> length (st_classes s') = length (st_classes s)) /\
  (without is_namespace n -> current_ns s' = current_ns s) /\
  Inv s'.
Definition spec (n : node) (k : nat) {A} (m : M A) (Q : A -> Prop) : Prop :=
  forall s, Inv s -> k <= length (st_classes s) ->
  match m s with
  | Done a s' => Post n k s s' /\ Q a
  | Panic => ~ safe
  | OutOfFuel => False
  end.
Definition any {A} : A -> Prop := fun _ => True.

Lemma comes_from_mono : forall m n s, below m n -> comes_from d m s -> comes_from d n s.
Proof.
  intros m n s B C. inversion C as [n' x a kids BX SX DX KX|n' a D X]; subst.
  - exact (comes_from_node d n x a kids (below_trans _ _ _ BX B) SX DX KX).
  - exact (comes_from_comment d n a D X).
Qed.
Ltac parts := unfold Post, keep; split; [|split; [split; [|split]|split; [|split; [|split]]]].
Lemma Post_refl : forall n k s, Inv s -> Post n k s s.
Proof.
  intros n k s I. parts; auto. exists []. rewrite app_nil_r. auto.
Qed.
Lemma Post_trans : forall n k s1 s2 s3, Post n k s1 s2 -> Post n k s2 s3 -> Post n k s1 s3.
Proof.
  intros n k s1 s2 s3 ((new1 & O1 & F1) & (L1 & K1 & R1) & I1 & C1 & N1 & V1) ((new2 & O2 & F2) & (L2 & K2 & R2) & I2 & C2 & N2 & V2).
  parts.
  - exists (new1 ++ new2). split; [rewrite O2, O1, app_assoc; reflexivity|apply Forall_app; auto].
  - lia.
  - intros i L. rewrite (K2 i L). exact (K1 i L).
  - intros i L. rewrite (R2 i ltac:(lia)). exact (R1 i L).
  - lia.
  - intros W. rewrite (C2 W). exact (C1 W).
  - intros W. rewrite (N2 W). exact (N1 W).
  - exact V2.
Qed.
Lemma Post_mono : forall m n k k' s s', below m n -> k' <= k -> Post m k s s' -> Post n k' s s'.
Proof.
  intros m n k k' s s' B L ((new & O & F) & (Le & K & R) & I & C & N & V). parts; auto.
  - exists new. split; [exact O|]. revert F. apply Forall_impl. intros a. exact (comes_from_mono m n a B).
  - intros i Li. apply K. lia.
  - intros W. exact (C (without_below _ _ _ W B)).
  - intros W. exact (N (without_below _ _ _ W B)).
Qed.

Lemma spec_ret : forall n k A (a : A) (Q : A -> Prop), Q a -> spec n k (ret a) Q.
Proof. intros n k A a Q H s I L. cbn. split; [exact (Post_refl n k s I)|exact H]. Qed.
Lemma spec_bind : forall n k A B (m : M A) (f : A -> M B) Q Q',
  spec n k m Q -> (forall a, Q a -> spec n k (f a) Q') -> spec n k (bind m f) Q'.
Proof.
  intros n k A B m f Q Q' H1 H2 s I L. unfold bind. specialize (H1 s I L).
  destruct (m s) as [a s'| |]; [|exact H1|exact H1]. destruct H1 as (P & q).
  pose proof P as (_ & (Le & _) & _ & _ & _ & I'). specialize (H2 a q s' I' ltac:(lia)).
  destruct (f a s') as [b s''| |]; [|exact H2|exact H2]. destruct H2 as (P2 & q2). split; [exact (Post_trans _ _ _ _ _ P P2)|exact q2].
Qed.
Lemma spec_weaken : forall n k A (m : M A) (Q Q' : A -> Prop), spec n k m Q -> (forall a, Q a -> Q' a) -> spec n k m Q'.
Proof.
  intros n k A m Q Q' H W s I L. specialize (H s I L). destruct (m s) as [a s'| |]; auto. destruct H. split; auto.
Qed.
Lemma spec_any : forall n k A (m : M A) (Q : A -> Prop), spec n k m Q -> spec n k m any.
Proof. intros n k A m Q H. exact (spec_weaken _ _ _ _ _ _ H (fun a _ => I)). Qed.
Lemma spec_below : forall m n k A (x : M A) Q, below m n -> spec m k x Q -> spec n k x Q.
Proof.
  intros m n k A x Q B H s I L. specialize (H s I L). destruct (x s) as [a s'| |]; auto. destruct H as (P & q).
  split; [exact (Post_mono m n k k s s' B (le_n k) P)|exact q].
Qed.
Lemma spec_forM : forall n k A (l : list A) (f : A -> M unit),
  (forall x, In x l -> spec n k (f x) any) -> spec n k (forM l f) any.
Proof.
  intros n k A l f H. induction l as [|x l IH]; cbn [forM]; [exact (spec_ret n k unit tt any I)|].
  refine (spec_bind n k unit unit _ _ any any (H x (or_introl eq_refl)) _). intros a _. apply IH. intros y Y. exact (H y (or_intror Y)).
Qed.
(** with what the loop has been through so far *)
Lemma spec_foldM_along : forall n k A B (l : list A) (f : B -> A -> M B) (b : B) (J : list A -> B -> Prop),
  J [] b -> (forall pre x post b, l = pre ++ x :: post -> J pre b -> spec n k (f b x) (J (pre ++ [x]))) -> spec n k (foldM l f b) (J l).
Proof.
  intros n k A B l f b J H0 H. enough (G : forall post pre b, l = pre ++ post -> J pre b -> spec n k (foldM post f b) (J l)) by exact (G l [] b eq_refl H0).
  induction post as [|x post IH]; intros pre b' E Jp; cbn [foldM].
  - apply spec_ret. rewrite E, app_nil_r. exact Jp.
  - refine (spec_bind n k B B _ _ _ _ (H pre x post b' E Jp) _). intros b'' Jb. apply (IH (pre ++ [x])); [rewrite <- app_assoc; exact E|exact Jb].
Qed.
Lemma spec_foldM : forall n k A B (l : list A) (f : B -> A -> M B) (b : B) (J : B -> Prop),
  J b -> (forall b x, In x l -> J b -> spec n k (f b x) J) -> spec n k (foldM l f b) J.
Proof.
  intros n k A B l f b J H0 H. refine (spec_foldM_along n k A B l f b (fun _ => J) H0 _).
  intros pre x post b' E Jb. apply H; [rewrite E; apply in_elt|exact Jb].
Qed.
Lemma spec_panic : forall n k A Q, ~ safe -> spec n k (@panic A) Q.
Proof. intros n k A Q N s I L. exact N. Qed.
Lemma spec_lift : forall n k A (o : option A), (safe -> o <> None) -> spec n k (lift o) (fun a => o = Some a).
Proof.
  intros n k A o H. destruct o as [a|]; cbn; [apply spec_ret; reflexivity|]. apply spec_panic. intros S. exact (H S eq_refl).
Qed.
Lemma spec_get : forall n k A (f : state -> A), spec n k (get f) any.
Proof. intros n k A f s I L. cbn. split; [exact (Post_refl n k s I)|exact Logic.I]. Qed.
Lemma spec_emit : forall n k x, comes_from d n x -> spec n k (emit x) any.
Proof.
  intros n k x C s I L. cbn. split; [|exact Logic.I]. parts; auto. exists [x]. auto.
Qed.
Lemma spec_var_do : forall n k op, spec n k (var_do op) any.
Proof.
  intros n k op s I L. cbn. split; [|exact Logic.I]. parts; auto. exists []. cbn. rewrite app_nil_r. auto.
Qed.
Lemma spec_set_doc : forall n k p, doc_ok p -> spec n k (set_doc p) any.
Proof.
  intros n k p D s I L. cbn. split; [|exact Logic.I]. parts; auto.
  - exists []. cbn. rewrite app_nil_r. auto.
  - intros q E. cbn in E. injection E as <-. exact D.
Qed.
Lemma spec_in_block : forall m n k A (x : M A) b Q, below m n -> spec m k x Q ->
  spec n k (in_block b x) (fun r => Q (fst r) /\ Forall (comes_from d m) (snd r)).
Proof.
  intros m n k A x b Q B H s I L. unfold in_block.
  specialize (H (St [] b (st_classes s) (st_imports s) (st_doc s) (st_vars s)) I L).
  destruct (x _) as [a s'| |]; auto. destruct H as (((new & O & F) & K & Im & C & N & V) & q).
  cbn [st_out st_classes st_imports] in *. split.
  - parts; cbn [st_out st_block st_classes st_imports]; auto; try apply K.
    + exists []. rewrite app_nil_r. auto.
    + intros W. exact (C (without_below _ _ _ W B)).
    + intros W. exact (N (without_below _ _ _ W B)).
  - cbn [fst snd]. split; [exact q|]. rewrite O. exact F.
Qed.
(** *** Import tables *)
Lemma nth_update : forall A (l : list A) i f j, nth_error (update_nth l i f) j = if Nat.eqb i j then option_map f (nth_error l j) else nth_error l j.
Proof.
  induction l as [|x l IH]; intros i f j; cbn [update_nth].
  - destruct j; cbn; destruct (Nat.eqb i _); reflexivity.
  - destruct i as [|i]; destruct j as [|j]; cbn; auto.
Qed.
Lemma length_update : forall A (l : list A) i f, length (update_nth l i f) = length l.
Proof. induction l as [|x l IH]; intros [|i] f; cbn; auto. Qed.

Lemma Post_imports : forall n k s l, Inv s -> length (st_imports s) <= length l ->
  (without is_namespace n -> current_ns (St (st_out s) (st_block s) (st_classes s) l (st_doc s) (st_vars s)) = current_ns s) ->
  Post n k s (St (st_out s) (st_block s) (st_classes s) l (st_doc s) (st_vars s)).
Proof.
  intros n k s l I L N. parts; auto. exists []. cbn. rewrite app_nil_r. auto.
Qed.
Lemma current_ns_push : forall s pos, st_imports s = [] ->
  current_ns (St (st_out s) (st_block s) (st_classes s) [newImportTable pos] (st_doc s) (st_vars s)) = current_ns s.
Proof. intros s pos E. unfold current_ns, current_table. rewrite E. reflexivity. Qed.
Lemma spec_set_table : forall n k s i t t', Inv s -> nth_error (st_imports s) i = Some t -> GetNamespace t' = GetNamespace t ->
  Post n k s (St (st_out s) (st_block s) (st_classes s) (update_nth (st_imports s) i (fun _ => t')) (st_doc s) (st_vars s)).
Proof.
  intros n k s i t t' I E G. apply Post_imports; [exact I|rewrite length_update; lia|]. intros _.
  unfold current_ns, current_table. cbn [st_imports]. rewrite length_update, nth_update.
  destruct (Nat.eqb_spec i (length (st_imports s) - 1)) as [->|]; [|reflexivity]. rewrite E. cbn. exact G.
Qed.
(** reading the current table, which is there afterwards *)
Lemma run_currImportTable : forall s, Inv s -> exists i t s',
  currImportTable d s = Done i s' /\ nth_error (st_imports s') i = Some t /\ i = length (st_imports s') - 1 /\
  current_ns s' = GetNamespace t /\ forall n k, Post n k s s'.
Proof.
  intros s I. unfold currImportTable, bind, get. destruct (st_imports s) as [|t l] eqn:E.
  - unfold pushImportTable, bind, get, set_imports, ret. rewrite E. cbn [length app].
    eexists 0, _, _. split; [reflexivity|]. cbn. split; [reflexivity|split; [reflexivity|split; [reflexivity|]]].
    intros n k. apply (Post_imports n k s _ I); [rewrite E; cbn; lia|]. intros _. exact (current_ns_push s _ E).
  - cbn [ret]. assert (L : length (t :: l) - 1 < length (t :: l)) by (cbn; lia).
    destruct (nth_error (t :: l) (length (t :: l) - 1)) as [u|] eqn:U.
    + exists (length (t :: l) - 1), u, s. split; [reflexivity|]. rewrite E. split; [exact U|split; [reflexivity|split]].
      * unfold current_ns, current_table. rewrite E, U. reflexivity.
      * intros n k. exact (Post_refl n k s I).
    + apply nth_error_None in U. lia.
Qed.
Lemma spec_currNamespace : forall n k, spec n k (currNamespace d) any.
Proof.
  intros n k s I L. unfold currNamespace, bind. destruct (run_currImportTable s I) as (i & t & s' & R & E & _ & _ & P). rewrite R.
  unfold get_table, bind, get. rewrite E. cbn. split; [exact (P n k)|exact Logic.I].
Qed.
Lemma namespace_currNamespace : forall s, Inv s -> exists s', currNamespace d s = Done (current_ns s) s' /\ (forall n k, Post n k s s').
Proof.
  intros s I. unfold currNamespace, bind. destruct (run_currImportTable s I) as (i & t & s' & R & E & _ & G & P). rewrite R.
  unfold get_table, bind, get. rewrite E. cbn [lift ret]. exists s'. split; [|exact P].
  destruct (P (Tk (Tok TkName 0 0)) 0) as (_ & _ & _ & _ & N & _). rewrite <- N, G; [reflexivity|].
  intros m B. inversion B as [|m' k' n' Ik]; subst; [reflexivity|destruct Ik].
Qed.
Lemma GetClassReferenceFQN_namespace : forall t x, GetNamespace (snd (GetClassReferenceFQN t x)) = GetNamespace t.
Proof.
  intros t x. unfold GetClassReferenceFQN. repeat match goal with |- context [match ?e with _ => _ end] => destruct e end; try reflexivity.
Qed.
Lemma spec_resolveClass : forall n k t, spec n k (resolveClass d t) (fun r => exists fqn, r = SetFQN t fqn).
Proof.
  intros n k t s I L. unfold resolveClass, bind. destruct (run_currImportTable s I) as (i & tb & s' & R & E & _ & _ & P). rewrite R.
  unfold get_table, bind, get. rewrite E. cbn [lift ret]. destruct (GetClassReferenceFQN tb t) as (fqn, tb') eqn:G.
  unfold change_table, bind, get, set_imports, ret. split; [|exists fqn; reflexivity].
  refine (Post_trans n k _ _ _ (P n k) _). pose proof (P n k) as (_ & _ & _ & _ & _ & I').
  refine (spec_set_table n k s' i tb tb' I' E _). pose proof (GetClassReferenceFQN_namespace tb t) as X. rewrite G in X. exact X.
Qed.
Lemma spec_currImportTable : forall n k, spec n k (currImportTable d) any.
Proof.
  intros n k s I L. destruct (run_currImportTable s I) as (i & t & s' & R & _ & _ & _ & P). rewrite R. split; [exact (P n k)|exact Logic.I].
Qed.
Lemma spec_change_table : forall n k i f, (without is_namespace n -> forall t, GetNamespace (f t) = GetNamespace t) -> spec n k (change_table i f) any.
Proof.
  intros n k i f F s I L. unfold change_table, bind, get, set_imports. split; [|exact Logic.I].
  refine (Post_imports n k s _ I _ _); [rewrite length_update; lia|]. intros W. unfold current_ns, current_table. cbn [st_imports]. rewrite length_update, nth_update.
  destruct (Nat.eqb_spec i (length (st_imports s) - 1)) as [->|]; [|reflexivity]. destruct (nth_error _ _); cbn; [apply (F W)|reflexivity].
Qed.
Lemma spec_pushImportTable : forall n k m, is_namespace n = true -> spec n k (pushImportTable d m) any.
Proof.
  intros n k m N s I L. unfold pushImportTable, bind, get, set_imports, ret. split; [|exact Logic.I].
  refine (Post_imports n k s _ I _ _); [rewrite app_length; cbn; lia|]. intros W. rewrite (W n (below_here n)) in N. discriminate.
Qed.

(** *** Classes *)
Lemma spec_change_class : forall n k i f, (i < k -> forall c, core (f c) = core c) -> (forall c, place (f c) = place c) -> spec n k (change_class i f) any.
Proof.
  intros n k i f C P s I L. cbn. split; [|exact Logic.I]. parts; auto; cbn [st_classes]; rewrite ?length_update; auto.
  - exists []. cbn. rewrite app_nil_r. auto.
  - intros j J. rewrite nth_update. destruct (Nat.eqb_spec i j) as [->|]; [|reflexivity]. destruct (nth_error _ j); cbn; [rewrite (C J)|]; reflexivity.
  - intros j J. rewrite nth_update. destruct (Nat.eqb_spec i j) as [->|]; [|reflexivity]. destruct (nth_error _ j); cbn; [rewrite P|]; reflexivity.
Qed.

(** *** Runs that keep something of the state *)
Definition spec_with (W : state -> Prop) (n : node) (k : nat) {A} (m : M A) (Q : A -> Prop) : Prop :=
  forall s, Inv s -> W s -> k <= length (st_classes s) ->
  match m s with
  | Done a s' => Post n k s s' /\ W s' /\ Q a
  | Panic => ~ safe
  | OutOfFuel => False
  end.
Lemma with_bind : forall W n k A B (m : M A) (f : A -> M B) Q Q',
  spec_with W n k m Q -> (forall a, Q a -> spec_with W n k (f a) Q') -> spec_with W n k (bind m f) Q'.
Proof.
  intros W n k A B m f Q Q' H1 H2 s I w L. unfold bind. specialize (H1 s I w L).
  destruct (m s) as [a s'| |]; [|exact H1|exact H1]. destruct H1 as (P & w' & q).
  pose proof P as (_ & (Le & _) & _ & _ & _ & I'). specialize (H2 a q s' I' w' ltac:(lia)).
  destruct (f a s') as [b s''| |]; [|exact H2|exact H2]. destruct H2 as (P2 & w2 & q2). split; [exact (Post_trans _ _ _ _ _ P P2)|auto].
Qed.
Lemma with_ret : forall W n k A (a : A) (Q : A -> Prop), Q a -> spec_with W n k (ret a) Q.
Proof. intros W n k A a Q H s I w L. cbn. split; [exact (Post_refl n k s I)|auto]. Qed.
Lemma with_forM : forall W n k A (l : list A) (f : A -> M unit),
  (forall x, In x l -> spec_with W n k (f x) any) -> spec_with W n k (forM l f) any.
Proof.
  intros W n k A l f H. induction l as [|x l IH]; cbn [forM]; [exact (with_ret W n k unit tt any I)|].
  refine (with_bind W n k unit unit _ _ any any (H x (or_introl eq_refl)) _). intros a _. apply IH. intros y Y. exact (H y (or_intror Y)).
Qed.
Lemma with_foldM : forall W n k A B (l : list A) (f : B -> A -> M B) (b : B) (J : B -> Prop),
  J b -> (forall b x, In x l -> J b -> spec_with W n k (f b x) J) -> spec_with W n k (foldM l f b) J.
Proof.
  intros W n k A B l f b J H0 H. revert b H0. induction l as [|x l IH]; intros b H0; cbn [foldM]; [exact (with_ret W n k B b J H0)|].
  refine (with_bind W n k B B _ _ J J (H b x (or_introl eq_refl) H0) _). intros b' Jb. apply IH; [|exact Jb]. intros b'' y Y. exact (H b'' y (or_intror Y)).
Qed.
Lemma with_spec : forall (W : state -> Prop) n k k' A (m : M A) Q, k <= k' -> (forall s, W s -> k' <= length (st_classes s)) ->
  (forall s s', W s -> Post n k' s s' -> W s') -> spec n k' m Q -> spec_with W n k m Q.
Proof.
  intros W n k k' A m Q K L S H s I w _. specialize (H s I (L s w)). destruct (m s) as [a s'| |]; auto. destruct H as (P & q).
  split; [exact (Post_mono n n k' k s s' (below_here n) K P)|split; [exact (S s s' w P)|exact q]].
Qed.
Lemma with_in_block : forall (W : state -> Prop) m n k A (x : M A) b Q,
  (forall s s', st_classes s = st_classes s' -> W s -> W s') -> below m n -> spec_with W m k x Q ->
  spec_with W n k (in_block b x) (fun r => Q (fst r) /\ Forall (comes_from d m) (snd r)).
Proof.
  intros W m n k A x b Q S B H s I w L. unfold in_block.
  specialize (H (St [] b (st_classes s) (st_imports s) (st_doc s) (st_vars s)) I (S s (St [] b (st_classes s) (st_imports s) (st_doc s) (st_vars s)) eq_refl w) L).
  destruct (x _) as [a s'| |]; auto. destruct H as (((new & O & F) & K & Im & C & N & V) & w' & q).
  cbn [st_out st_classes st_imports] in *. split; [|split].
  - parts; cbn [st_out st_block st_classes st_imports]; auto; try apply K.
    + exists []. rewrite app_nil_r. auto.
    + intros X. exact (C (without_below _ _ _ X B)).
    + intros X. exact (N (without_below _ _ _ X B)).
  - exact (S s' (St (st_out s) (st_block s) (st_classes s') (st_imports s') (st_doc s') (st_vars s')) eq_refl w').
  - cbn [fst snd]. split; [exact q|]. rewrite O. exact F.
Qed.
Lemma with_done : forall (W : state -> Prop) n k A (m : M A) Q, spec_with W n k m Q -> forall s, Inv s -> W s -> k <= length (st_classes s) ->
  match m s with Done a s' => Post n k s s' /\ Q a | Panic => ~ safe | OutOfFuel => False end.
Proof. intros W n k A m Q H s I w L. specialize (H s I w L). destruct (m s); auto. destruct H as (P & _ & q). auto. Qed.

(** the class at place [i], with what is known of its name *)
Definition class_at (i : nat) (kd : akind) (r : range) (N : type_string -> Prop) (s : state) : Prop :=
  exists c, nth_error (st_classes s) i = Some c /\ c_kind c = kd /\ c_range c = r /\ N (c_name c).
Lemma class_at_length : forall i kd r N s, class_at i kd r N s -> S i <= length (st_classes s).
Proof. intros i kd r N s (c & E & _). apply nth_error_Some. congruence. Qed.
Lemma class_at_classes : forall i kd r N s s', st_classes s = st_classes s' -> class_at i kd r N s -> class_at i kd r N s'.
Proof. intros i kd r N s s' E (c & X). exists c. rewrite <- E. exact X. Qed.
Lemma class_at_Post : forall i kd r N n s s', class_at i kd r N s -> Post n (S i) s s' -> class_at i kd r N s'.
Proof.
  intros i kd r N n s s' (c & E & K & R & Nm) (_ & (_ & C & _) & _). specialize (C i ltac:(lia)). rewrite E in C.
  destruct (nth_error (st_classes s') i) as [c'|] eqn:E'; [|discriminate C]. cbn in C. injection C as C1 C2 C3 C4.
  exists c'. split; [exact E'|]. rewrite C1, C2, C3. auto.
Qed.
Lemma with_class : forall i kd r N n k A (m : M A) Q, k <= i -> spec n (S i) m Q -> spec_with (class_at i kd r N) n k m Q.
Proof.
  intros i kd r N n k A m Q K H. apply (with_spec _ n k (S i) A m Q); [lia|apply class_at_length|apply class_at_Post|exact H].
Qed.
Lemma with_change_class : forall i kd r (N : type_string -> Prop) n k f, k <= i -> (forall c, place (f c) = place c) -> (forall c, N (c_name c) -> N (c_name (f c))) ->
  spec_with (class_at i kd r N) n k (change_class i f) any.
Proof.
  intros i kd r N n k f K P F s I (c & E & Kd & R & Nm) L. pose proof (spec_change_class n k i f ltac:(lia) P s I L) as H.
  cbn in *. split; [exact (proj1 H)|split; [|exact Logic.I]]. exists (f c). cbn [st_classes]. rewrite nth_update, Nat.eqb_refl, E. cbn.
  specialize (P c). injection P as P1 P2. rewrite P1, P2. auto.
Qed.
Lemma with_class_symbol : forall i kd r (N : type_string -> Prop) n k doc, spec_with (class_at i kd r N) n k (class_symbol i doc)
  (fun a => a_kind a = kd /\ a_range a = r /\ N (a_name a) /\ a_doc a = doc_range doc).
Proof.
  intros i kd r N n k doc s I (c & E & Kd & R & Nm) L. unfold class_symbol, bind, get. rewrite E. cbn.
  split; [exact (Post_refl n k s I)|split; [exists c; auto|auto]].
Qed.
Lemma spec_addClass : forall n k c A (f : nat -> M A) (N : type_string -> Prop) Q, class_like n = true -> N (c_name c) ->
  (forall i, k <= i -> spec_with (class_at i (c_kind c) (c_range c) N) n k (f i) Q) ->
  spec n k (bind (addClass c) f) Q.
Proof.
  intros n k c A f N Q CL Nm H s I L. unfold bind, addClass. set (s1 := St _ _ _ _ _ _). set (i := length (st_classes s)).
  assert (P1 : Post n k s s1).
  { subst s1. parts; cbn [st_out st_classes st_imports]; auto.
    - exists []. rewrite app_nil_r. auto.
    - rewrite app_length. cbn. lia.
    - intros j J. rewrite nth_error_app1 by lia. reflexivity.
    - intros j J. rewrite nth_error_app1 by lia. reflexivity.
    - intros W. rewrite (W n (below_here n)) in CL. discriminate. }
  assert (W1 : class_at i (c_kind c) (c_range c) N s1).
  { exists c. subst s1 i. cbn [st_classes]. rewrite nth_error_app2, Nat.sub_diag by lia. auto. }
  assert (L1 : k <= length (st_classes s1)) by (subst s1; cbn [st_classes]; rewrite app_length; lia).
  pose proof (with_done _ n k A _ _ (H i L) s1 I W1 L1) as X. destruct (f i s1) as [a s2| |]; auto. destruct X as (P2 & q).
  split; [exact (Post_trans _ _ _ _ _ P1 P2)|exact q].
Qed.
End Run.
