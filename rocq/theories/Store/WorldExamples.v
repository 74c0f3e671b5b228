(** Concrete executions of several goroutines, for examples and
    counterexamples: a list of actions is turned into a reachable state. *)
From Coq Require Import String.
From Coq Require Import List Bool NArith ZArith Lia.
From Coq.Strings Require Import Byte.
From Verif Require Import Base.Bytes Base.BytesProofs Base.Protocol Symbols.Symbols Symbols.KeysModel
  Storage.KvModel Store.FilterModel Store.StoreModel Store.StoreSpec Store.WorldModel Store.Examples.
Import ListNotations.
Open Scope list_scope.

Inductive act :=
| AStart (d : doc)      (* begin to synchronise *)
| AWrite (i : nat)      (* the i-th running synchronisation makes a write *)
| ADelete (u : gostr)
| AKill.

Definition is_running (w : world) (u : gostr) : bool := existsb (str_eqb u) (running_uris w).
Definition act_step (overlap : bool) (w : world) (a : act) : option world :=
  match a with
  | AStart d =>
      if overlap || negb (is_running w (d_uri d)) then
        match sync_effects (w_store w) d with
        | Some es => Some (World (w_store w) (w_running w ++ [(d, es)]) (w_done w) (w_seen w ++ [d]) (w_cut w))
        | None => None
        end
      else None
  | AWrite i =>
      match skipn i (w_running w) with
      | (d, e :: es) :: r2 => Some (World (apply_eff (w_store w) e) (firstn i (w_running w) ++ remaining d es ++ r2)
                                          (w_done w ++ completion d es) (w_seen w) (w_cut w))
      | _ => None
      end
  | ADelete u =>
      if overlap || negb (is_running w u) then
        match DeleteDocument (w_store w) u with
        | Some st' => Some (World st' (w_running w) (w_done w ++ [EvDelete u]) (w_seen w) (w_cut w))
        | None => None
        end
      else None
  | AKill =>
      match NewStore (s_uri (w_store w)) (s_db (w_store w)) (s_com (w_store w)) (s_greb (w_store w)) with
      | Some st' => Some (World st' [] (w_done w ++ [EvRestart]) (w_seen w) (w_cut w ++ running_uris w))
      | None => None
      end
  end.
Definition act_ok (a : act) : Prop := match a with AStart d => doc_ok d | ADelete u => ~ In NUL u | _ => True end.

Fixpoint drive (overlap : bool) (w : world) (l : list act) : option world :=
  match l with
  | [] => Some w
  | a :: l => match act_step overlap w a with Some w' => drive overlap w' l | None => None end
  end.

Lemma is_running_in : forall w u, is_running w u = false -> ~ In u (running_uris w).
Proof.
  intros w u H I. unfold is_running in H. apply Bool.not_true_iff_false in H. apply H. apply existsb_exists. exists u.
  split; [exact I|now apply str_eqb_eq].
Qed.

Lemma act_step_ok : forall overlap w a w', act_ok a -> act_step overlap w a = Some w' -> wstep (overlap = true) w w'.
Proof.
  intros overlap w a w' OK H. destruct a as [d|i|u|]; cbn [act_step act_ok] in *.
  - destruct (overlap || negb (is_running w (d_uri d))) eqn:E; [|discriminate]. destruct (sync_effects (w_store w) d) eqn:S; [|discriminate].
    injection H as <-. constructor; auto. apply orb_true_iff in E as [E|E]; [auto|]. right. apply is_running_in. now apply negb_true_iff.
  - destruct (skipn i (w_running w)) as [|[d [|e es]] r2] eqn:E; try discriminate. injection H as <-.
    apply WWrite with (d := d). rewrite <- (firstn_skipn i (w_running w)) at 1. now rewrite E.
  - destruct (overlap || negb (is_running w u)) eqn:E; [|discriminate]. destruct (DeleteDocument (w_store w) u) eqn:S; [|discriminate].
    injection H as <-. constructor; auto. apply orb_true_iff in E as [E|E]; [auto|]. right. apply is_running_in. now apply negb_true_iff.
  - destruct (NewStore _ _ _ _) eqn:S; [|discriminate]. injection H as <-. now constructor.
Qed.

Lemma wstep_mono : forall (P Q : Prop) w w', (P -> Q) -> wstep P w w' -> wstep Q w w'.
Proof.
  intros P Q w w' I St. destruct St; [constructor; auto; tauto|eapply WWrite; eauto|constructor; auto; tauto|constructor; auto..].
Qed.

Lemma drive_from : forall overlap root l w w', Forall act_ok l -> reachable (overlap = true) root w -> drive overlap w l = Some w' -> reachable (overlap = true) root w'.
Proof.
  induction l as [|a l IH]; intros w w' OK R H; cbn in H; [injection H as <-; exact R|].
  inversion OK; subst. destruct (act_step overlap w a) eqn:E; [|discriminate]. apply (IH w0 w'); auto. eapply reach_step; eauto. eapply act_step_ok; eauto.
Qed.
Lemma reachable_mono : forall (P Q : Prop) root w, (P -> Q) -> reachable P root w -> reachable Q root w.
Proof. intros P Q root w I R. induction R; [constructor|]. eapply reach_step; eauto. eapply wstep_mono; eauto. Qed.

Theorem drive_apart : forall root l w, Forall act_ok l -> drive false (new_world root) l = Some w -> reachable False root w.
Proof.
  intros root l w OK H. apply (reachable_mono (false = true)); [discriminate|]. eapply drive_from; eauto. constructor.
Qed.
Theorem drive_overlap : forall root l w, Forall act_ok l -> drive true (new_world root) l = Some w -> reachable True root w.
Proof.
  intros root l w OK H. apply (reachable_mono (true = true)); [auto|]. eapply drive_from; eauto. constructor.
Qed.

Definition writes (i n : nat) : list act := repeat (AWrite i) n.
