From Coq Require Import List Bool NArith Lia.
From Coq.Strings Require Import Byte.
From Verif Require Import Base.Bytes Base.BytesProofs Storage.KvModel Storage.KvSpec.
Import ListNotations.

(** ** get / put / del *)
Lemma kv_get_put : forall m k v k',
  kv_get (kv_put m k v) k' = if str_eqb k k' then Some v else kv_get m k'.
Proof.
  induction m as [|[a b] m IH]; intros k v k'; simpl.
  - reflexivity.
  - destruct (str_ltb k a) eqn:L; simpl.
    + reflexivity.
    + destruct (str_eqb_spec k a) as [->|N]; simpl.
      * destruct (str_eqb a k') eqn:E; reflexivity.
      * rewrite IH. destruct (str_eqb_spec a k') as [->|N'].
        -- destruct (str_eqb_spec k k'); congruence.
        -- reflexivity.
Qed.

Lemma kv_get_del : forall m k k',
  kv_get (kv_del m k) k' = if str_eqb k k' then None else kv_get m k'.
Proof.
  unfold kv_del. induction m as [|[a b] m IH]; intros k k'.
  - simpl. destruct (str_eqb k k'); reflexivity.
  - cbn [filter fst]. destruct (str_eqb_spec a k) as [->|N]; cbn [negb].
    + rewrite IH. cbn [kv_get]. destruct (str_eqb k k'); reflexivity.
    + cbn [kv_get]. rewrite IH. destruct (str_eqb_spec a k') as [->|N'].
      * destruct (str_eqb_spec k k'); congruence.
      * reflexivity.
Qed.

Lemma kv_get_put_same : forall m k v, kv_get (kv_put m k v) k = Some v.
Proof. intros. rewrite kv_get_put. now rewrite str_eqb_refl. Qed.
Lemma kv_get_put_other : forall m k v k', k <> k' -> kv_get (kv_put m k v) k' = kv_get m k'.
Proof. intros. rewrite kv_get_put. destruct (str_eqb_spec k k'); congruence. Qed.
Lemma kv_get_del_same : forall m k, kv_get (kv_del m k) k = None.
Proof. intros. rewrite kv_get_del. now rewrite str_eqb_refl. Qed.
Lemma kv_get_del_other : forall m k k', k <> k' -> kv_get (kv_del m k) k' = kv_get m k'.
Proof. intros. rewrite kv_get_del. destruct (str_eqb_spec k k'); congruence. Qed.

(** ** order *)
Lemma ascending_inv : forall a l, ascending (a :: l) -> ascending l.
Proof. intros a l H. inversion H; subst; [constructor|assumption]. Qed.

Lemma ascending_lt : forall a l, ascending (a :: l) -> forall e, In e l -> str_ltb (fst a) (fst e) = true.
Proof.
  intros a l. revert a. induction l as [|b l IH]; intros a H e I; [destruct I|].
  inversion H; subst. destruct I as [<-|I]; [assumption|].
  eapply str_ltb_trans; [eassumption|]. eauto.
Qed.

Lemma ascending_cons : forall a l, ascending l -> (forall e, In e l -> str_ltb (fst a) (fst e) = true) -> ascending (a :: l).
Proof.
  intros a [|b l] H F; [constructor|]. constructor; [|assumption]. apply F. now left.
Qed.

Lemma ascending_filter : forall f l, ascending l -> ascending (filter f l).
Proof.
  induction l as [|a l IH]; intros H; simpl; [constructor|].
  pose proof (ascending_inv _ _ H) as H'. destruct (f a); [|auto].
  apply ascending_cons; [auto|]. intros e I. apply filter_In in I as [I _].
  eapply ascending_lt; eauto.
Qed.

Lemma kv_put_in : forall m k v e, In e (kv_put m k v) -> e = (k, v) \/ In e m.
Proof.
  induction m as [|[a b] m IH]; intros k v e; simpl.
  - intros [<-|[]]; auto.
  - destruct (str_ltb k a); simpl; [intuition|].
    destruct (str_eqb k a); simpl; [intuition|].
    intros [<-|I]; [auto|]. apply IH in I. intuition.
Qed.

Lemma kv_put_ascending : forall m k v, ascending m -> ascending (kv_put m k v).
Proof.
  induction m as [|[a b] m IH]; intros k v H; simpl; [constructor|].
  destruct (str_ltb k a) eqn:L.
  - apply ascending_cons; [assumption|]. intros e [<-|I]; [exact L|].
    eapply str_ltb_trans; [exact L|]. exact (ascending_lt _ _ H e I).
  - destruct (str_eqb_spec k a) as [->|N].
    + apply ascending_cons; [eapply ascending_inv; eauto|]. intros e I. exact (ascending_lt _ _ H e I).
    + apply ascending_cons; [apply IH; eapply ascending_inv; eauto|].
      intros e I. apply kv_put_in in I as [->|I].
      * simpl. destruct (str_ltb a k) eqn:L2; [reflexivity|]. exfalso. apply N. now apply str_ltb_total.
      * exact (ascending_lt _ _ H e I).
Qed.

Lemma kv_del_ascending : forall m k, ascending m -> ascending (kv_del m k).
Proof. intros. now apply ascending_filter. Qed.

Lemma kv_get_in : forall m k v, ascending m -> (kv_get m k = Some v <-> In (k, v) m).
Proof.
  induction m as [|[a b] m IH]; intros k v H; simpl; [intuition discriminate|].
  pose proof (ascending_inv _ _ H) as H'.
  destruct (str_eqb_spec a k) as [->|N].
  - split.
    + intros E. injection E as ->. now left.
    + intros [E|I]; [congruence|]. exfalso.
      pose proof (ascending_lt _ _ H _ I) as L. simpl in L. now rewrite str_ltb_irrefl in L.
  - rewrite IH by assumption. split; [auto|]. intros [E|I]; [congruence|assumption].
Qed.

Lemma apply_bops_ascending : forall os m, ascending m -> ascending (apply_bops m os).
Proof.
  unfold apply_bops. induction os as [|[k v|k] os IH]; intros m H; simpl; [assumption| |].
  - apply IH. now apply kv_put_ascending.
  - apply IH. now apply kv_del_ascending.
Qed.

(** ** callbacks *)
Lemma mem_cact_fold : forall acts txn m,
  fold_left mem_cact acts (txn, m) =
  (apply_bops txn (batch_part acts), Memory (apply_bops (radix m) (direct_part acts))).
Proof.
  induction acts as [|a acts IH]; intros txn m; simpl.
  - destruct m; reflexivity.
  - destruct a as [o|o]; simpl.
    + rewrite IH. reflexivity.
    + destruct o; rewrite IH; reflexivity.
Qed.

Lemma ldb_cact_fold : forall acts wb d,
  fold_left ldb_cact acts (wb, d) =
  (wb ++ batch_part acts, LevelDB (apply_bops (ldb d) (direct_part acts))).
Proof.
  induction acts as [|a acts IH]; intros wb d; simpl.
  - rewrite app_nil_r. destruct d; reflexivity.
  - destruct a as [o|o]; simpl.
    + rewrite IH; simpl. rewrite <- app_assoc. reflexivity.
    + destruct o; rewrite IH; reflexivity.
Qed.

Lemma mem_WriteBatch_eq : forall m acts ok,
  mem_WriteBatch m acts ok =
  Memory (if ok then apply_bops (radix m) (batch_part acts) else apply_bops (radix m) (direct_part acts)).
Proof. intros. unfold mem_WriteBatch. rewrite mem_cact_fold. destruct ok; reflexivity. Qed.

Lemma ldb_WriteBatch_eq : forall d acts ok,
  ldb_WriteBatch d acts ok =
  LevelDB (apply_bops (ldb d) (direct_part acts ++ if ok then batch_part acts else [])).
Proof.
  intros. unfold ldb_WriteBatch. rewrite ldb_cact_fold. simpl.
  unfold apply_bops. destruct ok; rewrite fold_left_app; reflexivity.
Qed.

(** ** histories *)
Definition concerns (k : gostr) (e : effect) : bool :=
  match e with EPut k' _ | EDel k' => str_eqb k' k | EClear => true end.

Definition eff_apply (o : option gostr) (k : gostr) (e : effect) : option gostr :=
  match e with
  | EPut k' v => if str_eqb k' k then Some v else o
  | EDel k' => if str_eqb k' k then None else o
  | EClear => None
  end.

Lemma value_at_cons : forall e h k,
  value_at (e :: h) k =
  if existsb (concerns k) h then value_at h k else
  match e with
  | EPut k' v => if str_eqb k' k then Some v else None
  | EDel _ => None
  | EClear => None
  end.
Proof. reflexivity. Qed.

Lemma eff_fold_concerned : forall h k o o', existsb (concerns k) h = true ->
  fold_left (fun o e => eff_apply o k e) h o = fold_left (fun o e => eff_apply o k e) h o'.
Proof.
  induction h as [|e h IH]; intros k o o' H; simpl in *; [discriminate|].
  destruct (concerns k e) eqn:C; simpl in H.
  - assert (E : eff_apply o k e = eff_apply o' k e).
    { destruct e; simpl in *; rewrite ?C; reflexivity. }
    now rewrite E.
  - now apply IH.
Qed.

Lemma eff_fold_unconcerned : forall h k o, existsb (concerns k) h = false ->
  fold_left (fun o e => eff_apply o k e) h o = o.
Proof.
  induction h as [|e h IH]; intros k o H; simpl in *; [reflexivity|].
  apply orb_false_iff in H as [C H]. rewrite IH by assumption.
  destruct e; simpl in *; rewrite ?C; congruence.
Qed.

Lemma value_at_fold : forall h k, value_at h k = fold_left (fun o e => eff_apply o k e) h None.
Proof.
  induction h as [|e h IH]; intros k; [reflexivity|].
  rewrite value_at_cons. simpl.
  destruct (existsb (concerns k) h) eqn:C.
  - rewrite IH. now apply eff_fold_concerned.
  - rewrite eff_fold_unconcerned by assumption. destruct e; simpl; try reflexivity.
    destruct (str_eqb k0 k); reflexivity.
Qed.

Lemma apply_bops_effects : forall os m k,
  kv_get (apply_bops m os) k = fold_left (fun o e => eff_apply o k e) (map bop_effect os) (kv_get m k).
Proof.
  unfold apply_bops. induction os as [|o os IH]; intros m k; [reflexivity|]. simpl.
  rewrite IH. f_equal. destruct o as [a b|a]; simpl.
  - apply kv_get_put.
  - apply kv_get_del.
Qed.

Lemma mem_step_effects : forall m o k, batch_only o ->
  mem_Get (mem_step m o) k = fold_left (fun o e => eff_apply o k e) (op_effects o) (mem_Get m k).
Proof.
  intros m o k H. unfold mem_Get. destruct o; simpl.
  - apply kv_get_put.
  - apply kv_get_del.
  - reflexivity.
  - rewrite mem_WriteBatch_eq. simpl in *. destruct ok; simpl.
    + apply apply_bops_effects.
    + rewrite H. reflexivity.
Qed.

Lemma mem_history_gen : forall ops m k, Forall batch_only ops ->
  mem_Get (fold_left mem_step ops m) k =
  fold_left (fun o e => eff_apply o k e) (flat_map op_effects ops) (mem_Get m k).
Proof.
  induction ops as [|o ops IH]; intros m k H; [reflexivity|].
  inversion_clear H. simpl. rewrite IH by assumption. rewrite fold_left_app.
  now rewrite mem_step_effects.
Qed.

Lemma mem_history : forall ops k, Forall batch_only ops ->
  mem_Get (fold_left mem_step ops NewMemory) k = value_at (flat_map op_effects ops) k.
Proof. intros. rewrite mem_history_gen by assumption. now rewrite value_at_fold. Qed.

(** ** LevelDB clear *)
Lemma stream_collect : forall es acc,
  stream (fun acc k (_ : gostr) => (acc ++ [BDel k], false)) es acc = acc ++ map (fun e => BDel (fst e)) es.
Proof.
  induction es as [|[k v] es IH]; intros acc; simpl; [now rewrite app_nil_r|].
  rewrite IH. rewrite <- app_assoc. reflexivity.
Qed.

Lemma batch_part_OnBatch : forall os, batch_part (map OnBatch os) = os.
Proof. induction os; simpl; [reflexivity|]. now rewrite IHos. Qed.
Lemma direct_part_OnBatch : forall os, direct_part (map OnBatch os) = [].
Proof. induction os; simpl; [reflexivity|]. assumption. Qed.

Lemma dels_get : forall ks m k,
  kv_get (apply_bops m (map BDel ks)) k = if existsb (fun k' => str_eqb k' k) ks then None else kv_get m k.
Proof.
  unfold apply_bops. induction ks as [|a ks IH]; intros m k; simpl; [reflexivity|].
  rewrite IH, kv_get_del. destruct (str_eqb a k); simpl; [|reflexivity].
  destruct (existsb _ ks); reflexivity.
Qed.

Lemma kv_get_not_in : forall m k, existsb (fun k' => str_eqb k' k) (map fst m) = false -> kv_get m k = None.
Proof.
  induction m as [|[a b] m IH]; intros k H; simpl in *; [reflexivity|].
  apply orb_false_iff in H as [-> H]. auto.
Qed.

Lemma ldb_Clear_ops : forall d,
  ldb_Clear d = LevelDB (apply_bops (ldb d) (map BDel (map fst (ldb d)))).
Proof.
  intros d. unfold ldb_Clear. simpl. rewrite ldb_WriteBatch_eq, stream_collect.
  rewrite batch_part_OnBatch, direct_part_OnBatch. simpl. now rewrite map_map.
Qed.

Lemma ldb_Clear_get : forall d k, ldb_Get (ldb_Clear d) k = None.
Proof.
  intros d k. rewrite ldb_Clear_ops. unfold ldb_Get. simpl. rewrite dels_get.
  destruct (existsb _ _) eqn:E; [reflexivity|]. now apply kv_get_not_in.
Qed.

Lemma ldb_step_effects : forall d o k, batch_only o ->
  ldb_Get (ldb_step d o) k = fold_left (fun o e => eff_apply o k e) (op_effects o) (ldb_Get d k).
Proof.
  intros d o k H. destruct o; simpl ldb_step; simpl op_effects.
  - apply kv_get_put.
  - apply kv_get_del.
  - simpl. apply ldb_Clear_get.
  - rewrite ldb_WriteBatch_eq. simpl in H. rewrite H. simpl. unfold ldb_Get. simpl. destruct ok; simpl.
    + apply apply_bops_effects.
    + reflexivity.
Qed.

Lemma ldb_history_gen : forall ops d k, Forall batch_only ops ->
  ldb_Get (fold_left ldb_step ops d) k =
  fold_left (fun o e => eff_apply o k e) (flat_map op_effects ops) (ldb_Get d k).
Proof.
  induction ops as [|o ops IH]; intros m k H; [reflexivity|].
  inversion_clear H. simpl. rewrite IH by assumption. rewrite fold_left_app.
  now rewrite ldb_step_effects.
Qed.

(** ** reachable contents are ascending *)
Lemma mem_step_ascending : forall m o, ascending (radix m) -> ascending (radix (mem_step m o)).
Proof.
  intros m o H. destruct o; simpl.
  - now apply kv_put_ascending.
  - now apply kv_del_ascending.
  - constructor.
  - rewrite mem_WriteBatch_eq. simpl. destruct ok; now apply apply_bops_ascending.
Qed.
Lemma mem_reach_ascending : forall ops, ascending (radix (fold_left mem_step ops NewMemory)).
Proof.
  intros ops. assert (G : forall m, ascending (radix m) -> ascending (radix (fold_left mem_step ops m))).
  { induction ops as [|o ops IH]; intros m H; simpl; [assumption|]. apply IH. now apply mem_step_ascending. }
  apply G. constructor.
Qed.
Lemma ldb_step_ascending : forall d o, ascending (ldb d) -> ascending (ldb (ldb_step d o)).
Proof.
  intros d o H. destruct o; simpl ldb_step.
  - now apply kv_put_ascending.
  - now apply kv_del_ascending.
  - rewrite ldb_Clear_ops. now apply apply_bops_ascending.
  - rewrite ldb_WriteBatch_eq. now apply apply_bops_ascending.
Qed.
Lemma ldb_reach_ascending : forall ops d, ascending (ldb d) -> ascending (ldb (fold_left ldb_step ops d)).
Proof. induction ops as [|o ops IH]; intros d H; simpl; [assumption|]. apply IH. now apply ldb_step_ascending. Qed.

(** ** prefix ranges *)
Lemma succ_byte_some : forall b c, succ_byte b = Some c -> Byte.to_N c = (Byte.to_N b + 1)%N.
Proof. intros b c H. unfold succ_byte in H. now apply Byte.to_of_N in H. Qed.
Lemma succ_byte_none : forall b, succ_byte b = None -> forall c, byte_ltb b c = false.
Proof.
  intros b H c. unfold succ_byte in H. apply Byte.of_N_None_iff in H.
  unfold byte_ltb. apply N.ltb_ge. pose proof (Byte.to_N_bounded c). lia.
Qed.

Lemma str_ltb_app_same : forall p a b, str_ltb (p ++ a) (p ++ b) = str_ltb a b.
Proof.
  induction p as [|x p IH]; intros a b; simpl; [reflexivity|].
  destruct (byte_ltb x x) eqn:E; [apply byte_ltb_lt in E; lia|].
  rewrite byte_eqb_refl. auto.
Qed.

(** [k] is not before [p] and does not start with [p]: it is beyond every
    extension of [p] *)
Lemma in_range_rev : forall rp k,
  in_key_range (rev rp) (prefix_limit rp) k = has_prefix (rev rp) k.
Proof.
  intros rp. unfold in_key_range.
  induction rp as [|c rp IH]; intros k.
  - simpl. destruct k; reflexivity.
  - simpl rev. cbn [prefix_limit]. destruct (succ_byte c) as [c'|] eqn:S.
    + (* limit = rev rp ++ [c'] *)
      clear IH. simpl rev. generalize (rev rp). clear rp. intros q.
      revert k. induction q as [|x q IHq]; intros k.
      * simpl. destruct k as [|y k]; simpl; [reflexivity|].
        assert (E : byte_ltb y c' = negb (byte_ltb c y)).
        { unfold byte_ltb. rewrite (succ_byte_some _ _ S).
          destruct (N.ltb_spec (Byte.to_N c) (Byte.to_N y)), (N.ltb_spec (Byte.to_N y) (Byte.to_N c + 1)); simpl; lia. }
        rewrite E. rewrite (byte_eqb_sym c y).
        destruct (byte_ltb y c) eqn:L1.
        { apply byte_ltb_lt in L1. destruct (byte_eqb_spec y c) as [->|]; [lia|]. reflexivity. }
        destruct (byte_eqb_spec y c) as [->|N].
        { assert (L : byte_ltb c c = false) by (unfold byte_ltb; apply N.ltb_irrefl). rewrite L. simpl.
          destruct k; reflexivity. }
        assert (L2 : byte_ltb c y = true).
        { apply byte_ltb_lt. unfold byte_ltb in L1. apply N.ltb_ge in L1.
          assert (Byte.to_N c <> Byte.to_N y) by (intro Q; apply to_N_inj in Q; congruence). lia. }
        rewrite L2. simpl.
        destruct (byte_eqb_spec y c') as [->|]; [|reflexivity]. destruct k; reflexivity.
      * destruct k as [|y k]; simpl; [reflexivity|].
        rewrite (byte_eqb_sym x y).
        destruct (byte_ltb y x) eqn:L1.
        { apply byte_ltb_lt in L1. destruct (byte_eqb_spec y x) as [->|]; [lia|]. reflexivity. }
        destruct (byte_eqb_spec y x) as [->|N]; [|reflexivity].
        apply IHq.
    + (* c = 0xff: the limit is that of the shorter prefix *)
      specialize (IH k). revert IH. generalize (prefix_limit rp). intros lim.
      generalize (rev rp). clear rp. intros q IH.
      destruct lim as [l|].
      * destruct (has_prefix q k) eqn:P.
        -- apply andb_true_iff in IH as [_ IH]. rewrite IH, andb_true_r.
           apply has_prefix_spec in P as [t ->]. rewrite str_ltb_app_same, has_prefix_app_l. clear IH.
           destruct t as [|y t]; simpl; [reflexivity|].
           pose proof (succ_byte_none _ S y) as B. rewrite (byte_eqb_sym c y).
           destruct (byte_eqb_spec y c) as [->|N].
           ++ rewrite B. destruct t; reflexivity.
           ++ assert (L : byte_ltb y c = true).
              { apply byte_ltb_lt. unfold byte_ltb in B. apply N.ltb_ge in B.
                assert (Byte.to_N c <> Byte.to_N y) by (intro Q; apply to_N_inj in Q; congruence). lia. }
              now rewrite L.
        -- assert (NP : has_prefix (q ++ [c]) k = false).
           { destruct (has_prefix (q ++ [c]) k) eqn:Q; [|reflexivity].
             rewrite (has_prefix_trans q (q ++ [c]) k) in P; [discriminate| |assumption]. apply has_prefix_app. }
           rewrite NP. apply andb_false_iff in IH as [IH|IH]; [|rewrite IH; apply andb_false_r].
           apply negb_false_iff in IH.
           assert (L : str_ltb k (q ++ [c]) = true).
           { eapply str_ltb_trans; [exact IH|]. rewrite <- (app_nil_r q) at 1.
             rewrite str_ltb_app_same. reflexivity. }
           now rewrite L.
      * rewrite andb_true_r in *.
        destruct (has_prefix q k) eqn:P.
        -- apply has_prefix_spec in P as [t ->]. rewrite str_ltb_app_same, has_prefix_app_l. clear IH.
           destruct t as [|y t]; simpl; [reflexivity|].
           pose proof (succ_byte_none _ S y) as B. rewrite (byte_eqb_sym c y).
           destruct (byte_eqb_spec y c) as [->|N].
           ++ rewrite B. destruct t; reflexivity.
           ++ assert (L : byte_ltb y c = true).
              { apply byte_ltb_lt. unfold byte_ltb in B. apply N.ltb_ge in B.
                assert (Byte.to_N c <> Byte.to_N y) by (intro Q; apply to_N_inj in Q; congruence). lia. }
              now rewrite L.
        -- assert (NP : has_prefix (q ++ [c]) k = false).
           { destruct (has_prefix (q ++ [c]) k) eqn:Q; [|reflexivity].
             rewrite (has_prefix_trans q (q ++ [c]) k) in P; [discriminate| |assumption]. apply has_prefix_app. }
           rewrite NP. apply negb_false_iff in IH.
           assert (L : str_ltb k (q ++ [c]) = true).
           { eapply str_ltb_trans; [exact IH|]. rewrite <- (app_nil_r q) at 1.
             rewrite str_ltb_app_same. reflexivity. }
           now rewrite L.
Qed.

Lemma in_range_spec : forall p k,
  in_key_range p (prefix_limit (rev p)) k = has_prefix p k.
Proof. intros p k. pose proof (in_range_rev (rev p) k) as H. now rewrite rev_involutive in H. Qed.

Lemma ldb_PrefixStream_eq : forall S (f : S -> gostr -> gostr -> S * bool) d p s,
  ldb_PrefixStream f d p s = stream f (filter (fun e => has_prefix p (fst e)) (ldb d)) s.
Proof.
  intros S f d [|x p] s; unfold ldb_PrefixStream.
  - f_equal. symmetry. induction (ldb d) as [|e l IH]; [reflexivity|].
    cbn [filter]. replace (has_prefix [] (fst e)) with true by (destruct (fst e); reflexivity). now rewrite IH.
  - f_equal. apply filter_ext. intros e. apply in_range_spec.
Qed.

(** ** scans, for a callback that records what it saw and decides from it *)
Lemma stream_recorder : forall stop es seen,
  let r := stream (recorder stop) es seen in
  exists vis rest, r = seen ++ vis /\ es = vis ++ rest
    /\ (rest = [] \/ (vis <> [] /\ stop r = true))
    /\ (forall p q, vis = p ++ q -> p <> [] -> q <> [] -> stop (seen ++ p) = false).
Proof.
  intros stop. induction es as [|[k v] es IH]; intros seen; simpl.
  - exists [], []. rewrite app_nil_r. repeat split; auto.
    intros [|? ?] q E; [congruence|discriminate].
  - unfold recorder at 1. destruct (stop (seen ++ [(k, v)])) eqn:E.
    + exists [(k, v)], es. repeat split; auto.
      * right. split; [discriminate|assumption].
      * intros [|a p] q Q; [congruence|]. destruct p; [|destruct p; discriminate].
        simpl in Q. injection Q as _ Q. congruence.
    + destruct (IH (seen ++ [(k, v)])) as (vis & rest & R & EQ & ST & PF).
      exists ((k, v) :: vis), rest. rewrite <- app_assoc in R. simpl in R. repeat split.
      * exact R.
      * simpl. now rewrite EQ.
      * destruct ST as [->|[N S]]; [now left|]. right. split; [discriminate|exact S].
      * intros [|a p] q Q Np Nq; [congruence|]. simpl in Q. injection Q as <- Q.
        destruct p as [|b p]; [exact E|].
        specialize (PF (b :: p) q Q ltac:(discriminate) Nq). rewrite <- app_assoc in PF. exact PF.
Qed.

Lemma scan_of_filter : forall m p stop, ascending m ->
  scan_result (fun k v => has_prefix p k = true /\ kv_get m k = Some v) stop
    (stream (recorder stop) (filter (fun e => has_prefix p (fst e)) m) []).
Proof.
  intros m p stop H. exists (filter (fun e => has_prefix p (fst e)) m).
  destruct (stream_recorder stop (filter (fun e => has_prefix p (fst e)) m) []) as (vis & rest & R & EQ & ST & PF).
  simpl in R. rewrite R in *. repeat split.
  - now apply ascending_filter.
  - apply filter_In in H0 as [_ H0]. exact H0.
  - apply filter_In in H0 as [H0 _]. now apply kv_get_in.
  - intros [P G]. apply filter_In. split; [now apply kv_get_in|exact P].
  - exists rest. repeat split; auto.
Qed.

Lemma mem_during_eq : forall m acts, mem_during m acts = Memory (apply_bops (radix m) (direct_part acts)).
Proof. intros. unfold mem_during. now rewrite mem_cact_fold. Qed.
Lemma ldb_during_eq : forall d acts, ldb_during d acts = LevelDB (apply_bops (ldb d) (direct_part acts)).
Proof. intros. unfold ldb_during. now rewrite ldb_cact_fold. Qed.

Lemma comb_mem_mode_disk : forall c o, c_disk (comb_step c ModeMemory o) = c_disk c.
Proof. intros [m [d|]] o; reflexivity. Qed.
Lemma comb_mem_mode_disk_run : forall ops c,
  c_disk (fold_left (fun c o => comb_step c ModeMemory o) ops c) = c_disk c.
Proof. induction ops as [|o ops IH]; intros c; simpl; [reflexivity|]. rewrite IH. apply comb_mem_mode_disk. Qed.

Definition as_ops (os : list bop) : list dbop := map (fun o => match o with BPut k v => DPut k v | BDel k => DDelete k end) os.
Lemma mem_as_ops : forall os m, fold_left mem_step (as_ops os) m = Memory (apply_bops (radix m) os).
Proof.
  induction os as [|o os IH]; intros m; simpl; [destruct m; reflexivity|].
  destruct o; simpl; rewrite IH; reflexivity.
Qed.
Lemma ldb_as_ops : forall os m, fold_left ldb_step (as_ops os) m = LevelDB (apply_bops (ldb m) os).
Proof.
  induction os as [|o os IH]; intros m; simpl; [destruct m; reflexivity|].
  destruct o; simpl; rewrite IH; reflexivity.
Qed.

Lemma mem_ldb_same : forall ops k, Forall batch_only ops ->
  mem_Get (fold_left mem_step ops NewMemory) k = ldb_Get (fold_left ldb_step ops (LevelDB [])) k.
Proof.
  intros ops k H. rewrite mem_history_gen, ldb_history_gen by assumption. reflexivity.
Qed.

Lemma ascending_ext : forall a b, ascending a -> ascending b -> (forall k, kv_get a k = kv_get b k) -> a = b.
Proof.
  intros a b Ha Hb E.
  assert (I : forall x, In x a <-> In x b).
  { intros [k v]. rewrite <- !kv_get_in by assumption. now rewrite E. }
  clear E. revert b Hb I. induction a as [|x a IH]; intros b Hb I.
  - destruct b as [|y b]; [reflexivity|]. destruct (proj2 (I y)); now left.
  - destruct b as [|y b]; [destruct (proj1 (I x)); now left|].
    assert (x = y).
    { destruct (proj1 (I x) (or_introl eq_refl)) as [Q|Q]; [congruence|].
      destruct (proj2 (I y) (or_introl eq_refl)) as [Q'|Q']; [congruence|].
      pose proof (ascending_lt _ _ Hb _ Q) as L1. pose proof (ascending_lt _ _ Ha _ Q') as L2.
      now rewrite (str_ltb_asym _ _ L1) in L2. }
    subst y. f_equal. apply IH; [eapply ascending_inv; eauto|eapply ascending_inv; eauto|].
    intros z. split; intros Z.
    + destruct (proj1 (I z) (or_intror Z)) as [Q|Q]; [|assumption]. subst z.
      pose proof (ascending_lt _ _ Ha _ Z) as L. now rewrite str_ltb_irrefl in L.
    + destruct (proj2 (I z) (or_intror Z)) as [Q|Q]; [|assumption]. subst z.
      pose proof (ascending_lt _ _ Hb _ Z) as L. now rewrite str_ltb_irrefl in L.
Qed.

Lemma mem_ldb_same_content : forall ops, Forall batch_only ops ->
  radix (fold_left mem_step ops NewMemory) = ldb (fold_left ldb_step ops (LevelDB [])).
Proof.
  intros ops H. apply ascending_ext.
  - apply mem_reach_ascending.
  - apply ldb_reach_ascending. constructor.
  - intros k. exact (mem_ldb_same ops k H).
Qed.

Lemma comb_scan_all : forall c p s,
  comb_PrefixStreamFromAll (recorder (fun _ => false)) c p s =
  s ++ filter (fun e => has_prefix p (fst e)) (radix (c_mem c))
    ++ match c_disk c with Some d => filter (fun e => has_prefix p (fst e)) (ldb d) | None => [] end.
Proof.
  assert (G : forall es s, stream (recorder (fun _ => false)) es s = s ++ es).
  { induction es as [|[k v] es IH]; intros s; simpl; [now rewrite app_nil_r|].
    rewrite IH, <- app_assoc. reflexivity. }
  intros c p s. unfold comb_PrefixStreamFromAll, mem_PrefixStream. rewrite G.
  destruct (c_disk c) as [d|].
  - rewrite ldb_PrefixStream_eq, G. now rewrite app_assoc.
  - now rewrite app_nil_r.
Qed.
