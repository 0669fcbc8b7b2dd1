(** Registered clients, and what the engine handles when. *)
From Verif Require Import Bytes Errors Wire Proto Codec Address Message Client SpecKeys Engine SpecEngine SpecEngine2 EngineFacts EngineInv EngineReq EngineEv EngineConn EngineLog PropMessage EngineQueue.
Open Scope N_scope.

Lemma registered_app a b : registered (a ++ b) = registered a ++ registered b.
Proof. apply flat_map_app. Qed.
Lemma confirmed_app a b : confirmed (a ++ b) = confirmed a ++ confirmed b.
Proof. apply flat_map_app. Qed.
Arguments registered : simpl never.
Arguments confirmed : simpl never.
Definition pairs (s : sys) : list (nat * N) := map (fun c => (rc_h c, rc_id c)) (s_clients s).
Record ginv (s : sys) : Prop := mk_ginv {
  g_reg : registered (s_log s) = pairs s;
  g_cnt : (length (confirmed (s_log s)) + s_acks s <= length (registered (s_log s)))%nat;
  g_ph : match s_phase s with PAuth _ _ _ | PDial _ _ _ | PConn _ _ _ => s_clients s <> [] | _ => True end }.
Definition unreg (x : obs) : bool := match x with OReg _ _ | OConfirm _ => false | _ => true end.
Lemma unreg_nil c : forallb unreg c = true -> registered c = [] /\ confirmed c = [].
Proof.
  intros H. split; (induction c as [|x c IH]; [reflexivity|]); cbn in H; apply andb_true_iff in H as [H1 H2]; destruct x; try discriminate; apply (IH H2).
Qed.
Lemma unreg_cancel ns : forallb unreg (cancel_all ns) = true.
Proof. induction ns; auto. Qed.
Lemma unreg_ends hs f : forallb unreg (ends_log hs f) = true.
Proof. apply forallb_forall. intros x Hx. apply ends_log_cancel in Hx as [n ->]. reflexivity. Qed.
Lemma unreg_stop s : forallb unreg (stop_log s) = true.
Proof. unfold stop_log. rewrite forallb_app. cbn. now rewrite unreg_cancel, unreg_ends. Qed.
Definition busy (p : phase) : bool := match p with PAuth _ _ _ | PDial _ _ _ | PConn _ _ _ => true | _ => false end.
Lemma ginv_gen s s' c : ginv s -> s_log s' = s_log s ++ c -> forallb unreg c = true -> pairs s' = pairs s -> (s_acks s' <= s_acks s)%nat ->
  (busy (s_phase s') = true -> busy (s_phase s) = true \/ s_clients s <> []) -> ginv s'.
Proof.
  intros [G1 G2 G3] El Hc Hp Ha Hb. destruct (unreg_nil c Hc) as [X Y].
  assert (Hcl : s_clients s <> [] -> s_clients s' <> []).
  { intros Z. unfold pairs in Hp. destruct (s_clients s); [congruence|]. destruct (s_clients s'); discriminate. }
  constructor.
  - now rewrite El, registered_app, X, app_nil_r, Hp.
  - rewrite El, registered_app, confirmed_app, X, Y, !app_nil_r. lia.
  - destruct (s_phase s'); auto; apply Hcl; destruct (Hb eq_refl) as [Z|Z]; auto; destruct (s_phase s); auto; discriminate.
Qed.
Lemma ginv_stop s : ginv s -> ginv (stop s).
Proof.
  intros G. apply (ginv_gen s _ (stop_log s) G (stop_log_eq s) (unreg_stop s)).
  - rewrite stop_eq. reflexivity.
  - rewrite stop_eq. apply le_n.
  - rewrite stop_eq. discriminate.
Qed.
Lemma moved_pairs E s id c : pairs (moved E s id c) = pairs s.
Proof. apply moved_ids. Qed.
Lemma pairs_ne s s' : pairs s' = pairs s -> s_clients s <> [] -> s_clients s' <> [].
Proof. unfold pairs. intros H X. destruct (s_clients s); [congruence|]. destruct (s_clients s'); discriminate. Qed.
Lemma ginv_fwd s id n o s' : ginv s -> fwd s id n o s' -> ginv s'.
Proof.
  intros G F. destruct F as [c k G1 G2 G3|]; [|now apply ginv_stop].
  apply (ginv_gen s _ [OForward n (rc_addr c) o] G); auto. intros _. right. apply get_client_in in G1 as [G1 _]. intros X. rewrite X in G1. destruct G1.
Qed.
Lemma ginv_moved E s id c : ginv s -> ginv (moved E s id c).
Proof.
  intros G. apply (ginv_gen s _ [] G); auto.
  - rewrite moved_log. symmetry. apply app_nil_r.
  - apply moved_pairs.
  - destruct (moved_misc E s id c) as (_ & -> & _). apply le_n.
  - rewrite moved_phase. auto.
Qed.
Lemma busy_wake ns w p : busy (wake_ph ns w p) = busy p.
Proof. destruct (wake_ph_cases ns w p) as [->|(a & m & -> & _ & ->)]; auto. Qed.
Lemma ginv_sent s a ser i s' : ginv s -> sent s a ser i s' -> ginv s'.
Proof.
  intros T S. destruct S.
  - apply (ginv_gen s _ [OAnswer n ser i] T); auto.
  - apply (ginv_gen s _ [] T); auto. symmetry. apply app_nil_r.
Qed.
Lemma ginv_taken s h q n res dropped : ginv s -> ginv (taken s h q n res dropped).
Proof. intros G. apply (ginv_gen s _ (OTake n :: cancel_all dropped) G); auto. apply taken_log. apply unreg_cancel. Qed.
Lemma ginv_trans E s e s' : ginv s -> trans E s e s' -> ginv s'.
Proof.
  intros Q T. destruct T;
    repeat match goal with |- ginv (stop _) => apply ginv_stop | X : ginv ?x |- ginv ?x => exact X end.
  Ltac gq s Q c := apply (ginv_gen s _ c Q); [try reflexivity; symmetry; apply app_nil_r|try reflexivity|try reflexivity|try apply le_n|try (pj; auto)].
  - gq s Q (@nil obs).
  - gq s Q (@nil obs).
  - gq s Q [ORegErr (s_nh s)].
  - destruct Q as [G1 G2 G3]. constructor; pj; auto.
    + rewrite registered_app. change (registered [OConfirm h]) with (@nil (nat * N)). now rewrite app_nil_r.
    + rewrite registered_app, confirmed_app. change (registered [OConfirm h]) with (@nil (nat * N)). change (confirmed [OConfirm h]) with [h].
      rewrite app_nil_r, app_length. cbn [length]. lia.
  - gq s Q [ORegErr h]. pj. lia.
  - gq s Q (@nil obs).
  - gq s Q (@nil obs).
  - gq s Q (ends_log (regq_handles s) (s_ch s)). apply unreg_ends.
  - gq s Q [OIssue h (s_nreq s) o].
  - gq s Q [ORefuse h o].
  - gq s Q [OGot h i].
  - gq s Q [OGone h].
  - gq s Q (if ch_engine (s_ch s h) then [] else cancel_all (queued_requests (s_ch s h))). destruct (ch_engine (s_ch s h)); [reflexivity|apply unreg_cancel].
  - gq s Q [ODial (broker_address (e_cfg E)) true]. discriminate.
  - gq s Q [ODial (broker_address (e_cfg E)) false].
  - refine (ginv_fwd _ _ _ _ _ _ H5). now apply ginv_taken.
  - apply (ginv_gen (taken s h q n res dropped) _ []); auto; [now apply ginv_taken|symmetry; apply app_nil_r|].
    intros _. right. pj. intros X. rewrite X in H0. destruct H0.
  - apply (ginv_gen (taken s h q n res dropped) _ []); auto; [now apply ginv_taken|symmetry; apply app_nil_r|].
    intros _. right. pj. intros X. rewrite X in H0. destruct H0.
  - refine (ginv_fwd _ _ _ _ _ _ H6). now apply ginv_moved, ginv_taken.
  - gq s Q [OAuthed n r].
  - gq s Q [OAuthed n (Ok d)]. rewrite H. auto.
  - refine (ginv_fwd _ _ _ _ _ _ H1). apply ginv_moved. gq s Q [OAuthed n (Ok d)].
  - refine (ginv_fwd _ _ _ _ _ _ H0). apply ginv_moved. gq s Q [ODial (caddr E c) true].
  - gq s Q [ODial (caddr E c) false].
  - refine (ginv_sent _ _ _ _ _ _ H0). gq s Q [OHandle a ser i]. discriminate.
  - gq s Q [OHandle a ser InPing; OPonged a].
  - gq s Q [OHandle a ser InPing].
  - refine (ginv_sent _ _ _ _ _ _ H4). gq s Q [OHandle a ser i].
  - destruct Q as [G1 G2 G3]. constructor; pj; auto.
    + rewrite registered_app. change (registered [OReg h id]) with [(h, id)]. unfold pairs in *. pj. now rewrite map_app, G1.
    + rewrite registered_app, confirmed_app. change (registered [OReg h id]) with [(h, id)]. change (confirmed [OReg h id]) with (@nil nat).
      rewrite app_nil_r, app_length. cbn [length]. lia.
    + rewrite H. exact Logic.I.
  - destruct Q as [G1 G2 G3]. constructor; pj; auto.
    + rewrite registered_app. change (registered [OReg h id]) with [(h, id)]. unfold pairs in *. pj. now rewrite map_app, G1.
    + rewrite registered_app, confirmed_app. change (registered [OReg h id]) with [(h, id)]. change (confirmed [OReg h id]) with (@nil nat).
      rewrite app_nil_r, app_length. cbn [length]. lia.
    + rewrite H. exact Logic.I.
  - match goal with |- ginv (say _ ?c) => gq s Q c end. rewrite busy_wake. auto.
  - gq s Q (@nil obs). pj. rewrite !busy_wake. auto.
  - gq s Q (@nil obs). rewrite busy_wake. auto.
  - gq s Q (@nil obs). rewrite busy_wake. auto.
  - gq s Q (@nil obs).
  - gq s Q [OArrive a (s_narr s) i]. rewrite busy_wake. auto.
  - gq s Q [OArrive a (s_narr s) i].
  - gq s Q [OArrive a (s_narr s) i]. rewrite busy_wake. auto.
Qed.
Lemma reach_gate E h s : reach E h s -> ginv s.
Proof.
  revert h s. apply (reach_inv E ginv).
  - constructor; cbn; auto.
  - intros s e s' _ G T. eapply ginv_trans; eauto.
Qed.

(** * What is handled when *)
Definition gate (E : env) (l1 : list obs) (x : obs) (l2 : list obs) : Prop :=
  match x with
  | OHandle a ser i => (forall m, waiting_on l1 m kconnect -> i = InConnected /\ exists c, In (OForward m a (OConnect c)) l1) /\ registered l1 <> []
  | OTake n => registered l1 <> []
  | _ => True
  end.
Lemma gate_closed E : forward_closed (gate E).
Proof. intros l1 x l2 l3 H. destruct x; exact H. Qed.
Definition ungated (x : obs) : bool := match x with OHandle _ _ _ | OTake _ => false | _ => true end.
Lemma chunk_ungated E l c : forallb ungated c = true -> chunk (gate E) l c.
Proof.
  intros H. apply chunk_all. intros l1 x l2 Hx. rewrite forallb_forall in H. apply H in Hx. destruct x; try exact Logic.I; discriminate.
Qed.
Lemma ungated_cancel ns : forallb ungated (cancel_all ns) = true.
Proof. induction ns; auto. Qed.
Lemma ungated_ends hs f : forallb ungated (ends_log hs f) = true.
Proof. apply forallb_forall. intros x Hx. apply ends_log_cancel in Hx as [n ->]. reflexivity. Qed.
Lemma ungated_stop s : forallb ungated (stop_log s) = true.
Proof. unfold stop_log. rewrite forallb_app. cbn. now rewrite ungated_cancel, ungated_ends. Qed.
Lemma gate_quiet E s s' c : s_log s' = s_log s ++ c -> forallb ungated c = true -> exists c, s_log s' = s_log s ++ c /\ chunk (gate E) (s_log s) c.
Proof. intros H Hc. exists c. split; auto. now apply chunk_ungated. Qed.
Lemma gate_one E s s' x c : s_log s' = s_log s ++ x :: c -> gate E (s_log s) x c -> forallb ungated c = true ->
  exists c, s_log s' = s_log s ++ c /\ chunk (gate E) (s_log s) c.
Proof. intros H Hx Hc. eexists. split; [exact H|]. cbn [chunk]. split; [exact Hx|now apply chunk_ungated]. Qed.
Lemma fwd_log s id n o s' : fwd s id n o s' -> exists c, s_log s' = s_log s ++ c /\ forallb ungated c = true.
Proof. intros F. destruct F; [eexists; split; reflexivity|]. exists (stop_log s). split; [apply stop_log_eq|apply ungated_stop]. Qed.
Lemma sent_log s a ser i s' : sent s a ser i s' -> exists c, s_log s' = s_log s ++ c /\ forallb ungated c = true.
Proof. intros S. destruct S; [eexists; split; reflexivity|]. exists []. split; [symmetry; apply app_nil_r|reflexivity]. Qed.
Lemma trans_gate E s e s' : inv E s -> ginv s -> trans E s e s' -> exists c, s_log s' = s_log s ++ c /\ chunk (gate E) (s_log s) c.
Proof.
  intros I G T. pose proof I as [W Hh Hf R C A S]. pose proof (c_ph E s C) as P. pose proof (g_ph s G) as B.
  assert (Rg : s_clients s <> [] -> registered (s_log s) <> []).
  { intros X. rewrite (g_reg s G). unfold pairs. destruct (s_clients s); [congruence|discriminate]. }
  assert (Rc : forall c, In c (s_clients s) -> registered (s_log s) <> []).
  { intros c X. apply Rg. intros Y. rewrite Y in X. destruct X. }
  assert (Nw : s_phase s = PRun -> forall m, ~ waiting_on (s_log s) m kconnect).
  { intros Hp m Hw. apply (waiting_find s m kconnect R) in Hw. unfold phase_ok in P. rewrite Hp in P. congruence. }
  assert (Z : forall t c, s_log t = s_log s ++ c -> forallb ungated c = true -> exists c, s_log (stop t) = s_log s ++ c /\ chunk (gate E) (s_log s) c).
  { intros t c X Y. apply (gate_quiet E s _ (c ++ stop_log t)); [rewrite stop_log_eq, X, <- app_assoc; reflexivity|]. rewrite forallb_app, Y. apply ungated_stop. }
  assert (G0 : s_log s' = s_log s -> exists c, s_log s' = s_log s ++ c /\ chunk (gate E) (s_log s) c).
  { intros X. exists []. rewrite app_nil_r. split; [exact X|exact Logic.I]. }
  destruct T; try (apply G0; reflexivity);
    try (apply (Z s []); [symmetry; apply app_nil_r|reflexivity]);
    try (eapply gate_quiet; [reflexivity|first [reflexivity|apply ungated_ends]]; fail);
    try (eapply Z; [reflexivity|reflexivity]; fail).
  - eapply gate_quiet; [reflexivity|]. destruct (ch_engine (s_ch s h)); [reflexivity|apply ungated_cancel].
  - destruct (fwd_log _ _ _ _ _ H5) as (c0 & E0 & U0). rewrite taken_log, <- app_assoc in E0. cbn [app] in E0.
    eapply gate_one; [exact E0|exact (Rc c H0)|]. rewrite forallb_app, ungated_cancel. exact U0.
  - eapply gate_one; [apply taken_log|exact (Rc c H0)|apply ungated_cancel].
  - eapply gate_one; [apply taken_log|exact (Rc c H0)|apply ungated_cancel].
  - destruct (fwd_log _ _ _ _ _ H6) as (c0 & E0 & U0). rewrite moved_log, taken_log, <- app_assoc in E0. cbn [app] in E0.
    eapply gate_one; [exact E0|exact (Rc c H0)|]. rewrite forallb_app, ungated_cancel. exact U0.
  - destruct (fwd_log _ _ _ _ _ H1) as (c0 & E0 & U0). rewrite moved_log in E0. cbn [s_log say] in E0. rewrite <- app_assoc in E0.
    eapply gate_quiet; [exact E0|]. exact U0.
  - destruct (fwd_log _ _ _ _ _ H0) as (c0 & E0 & U0). rewrite moved_log in E0. cbn [s_log say put_conn with_conns] in E0. rewrite <- app_assoc in E0.
    eapply gate_quiet; [exact E0|]. exact U0.
  - rewrite H in B. unfold phase_ok in P. rewrite H in P. destruct P as (P1 & P2 & P3).
    destruct (sent_log _ _ _ _ _ H0) as (c0 & E0 & U0). cbn [s_log say with_phase] in E0. rewrite <- app_assoc in E0.
    eapply gate_one; [exact E0| |exact U0]. split; [|now apply Rg]. intros m Hw. split; [eauto|]. apply (waiting_find s m kconnect R) in Hw. assert (m = n) as -> by congruence. exact P2.
  - eapply gate_one; [reflexivity| |reflexivity]. split; [|now apply Rg]. intros m Hw. exfalso. now apply (Nw H m).
  - eapply gate_one; [rewrite stop_log_eq; cbn [s_log say put_conn with_conns]; rewrite <- app_assoc; reflexivity| |apply ungated_stop].
    split; [|now apply Rg]. intros m Hw. exfalso. now apply (Nw H m).
  - destruct (sent_log _ _ _ _ _ H4) as (c0 & E0 & U0). cbn [s_log say put_conn with_conns] in E0. rewrite <- app_assoc in E0.
    eapply gate_one; [exact E0| |exact U0]. split; [|now apply Rg]. intros m Hw. exfalso. now apply (Nw H m).
Qed.
Lemma reach_gates E h s : reach E h s -> every (gate E) (s_log s).
Proof.
  intros H. enough (inv E s /\ ginv s /\ every (gate E) (s_log s)) by tauto. revert h s H.
  apply (reach_inv E (fun s => inv E s /\ ginv s /\ every (gate E) (s_log s))).
  - split; [apply inv_init|]. split; [constructor; cbn; auto|]. intros l1 x l2 X. destruct l1; discriminate.
  - intros s e s' W (I & G & V) T. split; [eapply inv_trans; eauto|]. split; [eapply ginv_trans; eauto|].
    destruct (trans_gate E s e s' I G T) as (c & -> & Hc). apply every_app; auto. apply gate_closed.
Qed.
