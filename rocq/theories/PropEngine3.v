(** C41-C43, C45, C46, C49: ends, faults, broker errors, dials, moves, credentials. *)
From Verif Require Import Bytes Errors Wire Proto Codec Address Message SpecMessage Client SpecKeys MessageFacts Engine SpecEngine SpecEngine2 EngineFacts EngineInv EngineReq EngineEv EngineConn EngineLog EngineView EngineQueue EngineRoute EngineGate EngineLife EngineEx PropMessage PropEngine PropEngine2.
Open Scope N_scope.

(** * C41 *)
(** After the end of the engine every request it had taken has completed; those in
    flight at the end complete with ChannelTerminated. *)
Theorem C41_taken_requests_complete : forall E h s n o, reach E h s -> In OStop (s_log s) ->
  In n (takes (s_log s)) -> requested (s_log s) n o -> asks o = true -> In n (settled (s_log s)).
Proof.
  intros E h s n o H Hs Ht Hr Ha. pose proof (reach_all E h s H) as I.
  destruct (r_done s (v_r E s I) n o Ht Hr Ha) as [X|X]; auto.
  apply (i_stop s (v_s E s I)) in Hs. rewrite (i_res s (v_s E s I) Hs) in X. destruct X.
Qed.
Theorem C41_in_flight_cancelled : forall E h s l1 l2 n k, reach E h s -> s_log s = l1 ++ OStop :: l2 -> in_flight l1 n k -> In (OCancel n) l2.
Proof.
  intros E h s l1 l2 n k H El (o & A & B & C & D & F).
  assert (X : In n (settled (s_log s))).
  { apply (C41_taken_requests_complete E h s n o H); rewrite ?El.
    - apply in_elt.
    - rewrite takes_app. apply in_app_iff; auto.
    - now apply requested_app.
    - now rewrite (expects_asks o k B). }
  rewrite El in X. change (l1 ++ OStop :: l2) with (l1 ++ [OStop] ++ l2) in X. rewrite !settled_app, !in_app_iff in X. destruct X as [X|[[]|X]]; [contradiction|].
  apply settled_in in X as [(ser & i & X)|X]; auto. exfalso.
  apply in_split in X as (p1 & p2 & ->). pose proof (reach_entries E h s H) as En.
  destruct (En (l1 ++ OStop :: p1) (OAnswer n ser i) p2) as (l0 & a & i0 & key & E1 & _); [rewrite El, <- app_assoc; reflexivity|].
  assert (E2 : exists p0, p1 = p0 ++ [OHandle a ser i0] /\ l0 = l1 ++ OStop :: p0).
  { destruct p1 as [|x p1] using rev_ind.
    - apply app_inj_tail in E1 as [_ E1]. discriminate.
    - clear IHp1. rewrite app_comm_cons, app_assoc in E1. apply app_inj_tail in E1 as [E1 ->]. exists p1. split; auto. }
  destruct E2 as (p0 & -> & ->).
  destruct (En (l1 ++ OStop :: p0) (OHandle a ser i0) (OAnswer n ser i :: p2)) as (Z & _).
  - rewrite El. rewrite <- !app_assoc. cbn. rewrite <- ?app_assoc. reflexivity.
  - apply Z, in_elt.
Qed.
(** A registered client's calls are refused from then on, and change nothing else. *)
Lemma registered_engine E h s c id : reach E h s -> In OStop (s_log s) -> In (c, id) (registered (s_log s)) -> ch_engine (s_ch s c) = false.
Proof.
  intros H Hs Hr. pose proof (reach_all E h s H) as I. apply (i_stop s (v_s E s I)) in Hs. pose proof (v_h E s I) as Hh.
  rewrite (g_reg s (reach_gate E h s H)) in Hr. apply in_map_iff in Hr as (x & Ex & Hx). injection Ex as <- <-.
  destruct (ch_engine (s_ch s (rc_h x))) eqn:X; auto. apply (h_engine s Hh) in X as [[_ X]|[X _]]; [contradiction|].
  exfalso. apply (NoDup_app_not _ _ (rc_h x) (h_nodup s Hh)); auto. now apply in_map.
Qed.
Theorem C41_later_calls_refused : forall E h s c id o, reach E h s -> In OStop (s_log s) -> In (c, id) (registered (s_log s)) ->
  forall s', step E s (EvIssue c o) = Some s' -> s' = say s [ORefuse c o].
Proof.
  intros E h s c id o H Hs Hr s'. cbn [step]. rewrite (registered_engine E h s c id H Hs Hr).
  destruct (ch_client (s_ch s c) && ch_use (s_ch s c) && api_request (ch_id (s_ch s c)) o); congruence.
Qed.
(** What is queued for a client can be read to the end, then receiving fails. *)
Theorem C41_queued_events_readable : forall E h s c id, reach E h s -> In OStop (s_log s) -> In (c, id) (registered (s_log s)) ->
  ch_client (s_ch s c) = true -> ch_use (s_ch s c) = true ->
  exists s1 s2, run E s (repeat (EvRecv c) (length (ch_down (s_ch s c)))) = Some s1 /\
    s_log s1 = s_log s ++ map (OGot c) (ch_down (s_ch s c)) /\
    step E s1 (EvRecv c) = Some s2 /\ s_log s2 = s_log s1 ++ [OGone c].
Proof.
  intros E h s c id H Hs Hr Hc Hu. pose proof (registered_engine E h s c id H Hs Hr) as He. clear H Hs Hr.
  remember (ch_down (s_ch s c)) as q eqn:Q. symmetry in Q. revert s Hc Hu He Q. induction q as [|i q IH]; intros s Hc Hu He Q.
  - exists s. eexists. cbn [length repeat run map]. split; [reflexivity|]. split; [symmetry; apply app_nil_r|].
    cbn [step]. rewrite Hc, Hu, Q, He. cbn. split; reflexivity.
  - cbn [length repeat run]. cbn [step]. rewrite Hc, Hu, Q. cbn [andb].
    destruct (IH (say (upd_ch s c (ch_set_down q)) [OGot c i])) as (s1 & s2 & A & B & C & D);
      try (pj; unfold set_ch; rewrite Nat.eqb_refl; assumption || reflexivity).
    exists s1, s2. split; [exact A|]. split; [|auto]. rewrite B. pj. rewrite <- app_assoc. reflexivity.
Qed.
(** A request the engine had not taken when it ended never completes, whatever happens
    afterwards, as long as its client is not dropped. *)
Theorem C41_untaken_never_completes : forall E h s l1 l2 c n o, reach E h s -> s_log s = l1 ++ OStop :: l2 ->
  In (OIssue c n o) l1 -> ~ In n (takes l1) -> ~ In (EvDropClient c) h -> ~ In n (settled (s_log s)).
Proof.
  intros E h s l1 l2 c n o H El Hi Ht Hd.
  assert (Hi' : In (OIssue c n o) (s_log s)) by (rewrite El; apply in_app_iff; auto).
  destruct (reach_issuer E h s H c n o Hi' Hd) as [Hc _].
  assert (Ht' : ~ In n (takes (s_log s))).
  { intros X. apply takes_in in X. rewrite El in X. apply in_app_iff in X as [X|[X|X]]; [apply Ht; now apply takes_in|discriminate|].
    apply in_split in X as (p1 & p2 & ->). destruct (reach_entries E h s H (l1 ++ OStop :: p1) (OTake n) p2) as (Z & _); [rewrite El, <- app_assoc; reflexivity|].
    apply Z, in_elt. }
  destruct (reach_queues E h s H) as [Q _]. pose proof (q_up s Q c) as U.
  assert (X : In n (issued c (s_log s))) by (apply in_flat_map; exists (OIssue c n o); split; auto; rewrite Nat.eqb_refl; now left).
  rewrite U in X. apply in_app_iff in X as [X|X]; [apply filter_In in X; tauto|].
  apply in_map_iff in X as ([m o'] & Em & X). cbn in Em. subst m.
  destruct (r_up s (v_r E s (reach_all E h s H)) c n o' X) as (_ & _ & Y). auto.
Qed.
Print Assumptions C41_taken_requests_complete.
Print Assumptions C41_in_flight_cancelled.
Print Assumptions C41_later_calls_refused.
Print Assumptions C41_queued_events_readable.
Print Assumptions C41_untaken_never_completes.
(** Client 1 has an ack in flight (request 1), one not taken (request 3) and a message
    queued when the loss of the connection ends the engine. *)
Definition x_end : list event := x_reg2 ++ x_connect 0%nat ++
  [EvIssue 1%nat (x_ack 1); EvClient 1%nat; EvIssue 0%nat (OFlow 0 5); EvIssue 1%nat (x_ack 1); EvNet xA (f_msg 1 4 (str "d")); EvConn xA; EvNet xA IEnd; EvConn xA].
Example C41_meets : match run xE sys_init x_end with
  | Some s => In OStop (s_log s) /\ takes (s_log s) = [0; 1]%nat /\ settled (s_log s) = [0; 1]%nat /\ In (OIssue 1%nat 3%nat (x_ack 1)) (s_log s) /\
      In (1%nat, 1) (registered (s_log s)) /\ length (ch_down (s_ch s 1%nat)) = 1%nat /\ ch_client (s_ch s 1%nat) = true /\ ch_use (s_ch s 1%nat) = true /\
      existsb (fun e => match e with EvDropClient _ => true | _ => false end) x_end = false
  | None => False end.
Proof. vm_compute. conjs; try reflexivity; tauto. Qed.

(** * C42 *)
(** A registered client that has been dropped: whenever the engine waits for events it
    may serve that client; if nothing is queued that ends it; and it cannot serve the
    client more often than requests are queued without ending. *)
Theorem C42_dropped_client_ends_engine : forall E h s c id, reach E h s -> In (c, id) (registered (s_log s)) -> ch_client (s_ch s c) = false ->
  (s_phase s = PRun -> exists s', step E s (EvClient c) = Some s' /\
     (ch_up (s_ch s c) = [] -> In OStop (s_log s'))) /\
  (forall h2 s2, run E s h2 = Some s2 -> ~ In OStop (s_log s2) -> (count (serves c) h2 <= length (ch_up (s_ch s c)))%nat).
Proof.
  intros E h s c id H Hr Hc. pose proof (reach_all E h s H) as I. rewrite (g_reg s (reach_gate E h s H)) in Hr.
  apply in_map_iff in Hr as (x & Ex & Hx). injection Ex as Ex <-. split.
  - intros Hp. cbn [step]. rewrite Hp.
    destruct (s_conns s) as [|k0 ks] eqn:K.
    { exfalso. apply (C33_clients_need_connections E h s H); auto. intros X. rewrite X in Hx. destruct Hx. }
    destruct (find (fun z => (rc_h z =? c)%nat) (s_clients s)) as [y|] eqn:F.
    2:{ exfalso. apply (find_none _ _ F) in Hx. rewrite Ex, Nat.eqb_refl in Hx. discriminate. }
    destruct (ch_up (s_ch s c)) as [|[n o] q].
    + rewrite Hc. eexists. split; [reflexivity|]. intros _. rewrite stop_log_eq. apply in_app_iff. right. now left.
    + destruct (if asks o then r_put (okey o) n (s_res s) else (s_res s, [])). eexists. split; [reflexivity|]. discriminate.
  - intros h2 s2 R Hs. assert (Hp : s_phase s2 <> PStop) by (intros X; apply Hs; now apply (i_stop s2 (v_s E s2 (inv_run E s h2 s2 I R)))).
    assert (Hlt : (c < s_nh s)%nat) by (apply (h_lt s (v_h E s I)), in_app_iff; left; rewrite <- Ex; now apply in_map).
    pose proof (gone_bound E s h2 s2 c I R Hlt Hc Hp). lia.
Qed.
(** A connection that has been lost: likewise. *)
Theorem C42_lost_connection_ends_engine : forall E h s a k, reach E h s -> get_conn a (s_conns s) = Some k -> k_alive k = false ->
  (s_phase s = PRun -> registered (s_log s) <> [] -> exists s', step E s (EvConn a) = Some s' /\ (k_n2e k = [] -> In OStop (s_log s'))) /\
  (forall h2 s2, run E s h2 = Some s2 -> ~ In OStop (s_log s2) -> (count (reads a) h2 <= length (k_n2e k))%nat).
Proof.
  intros E h s a k H K Hk. pose proof (reach_all E h s H) as I. split.
  - intros Hp Hr. rewrite (g_reg s (reach_gate E h s H)) in Hr. cbn [step]. rewrite Hp.
    destruct (s_clients s) as [|x xs] eqn:X; [exfalso; apply Hr; unfold pairs; now rewrite X|]. rewrite K.
    destruct (k_n2e k) as [|[ser i] q].
    + rewrite Hk. eexists. split; [reflexivity|]. intros _. rewrite stop_log_eq. apply in_app_iff. right. now left.
    + eexists. split; [reflexivity|]. discriminate.
  - intros h2 s2 R Hs. assert (Hp : s_phase s2 <> PStop) by (intros X; apply Hs; now apply (i_stop s2 (v_s E s2 (inv_run E s h2 s2 I R)))).
    destruct (lost_bound E s h2 s2 a k I R K Hk Hp) as (k2 & _ & _ & Z). lia.
Qed.
Lemma queued_stop a s : queued a (s_log (stop s)) = queued a (s_log s).
Proof. rewrite stop_log_eq, queued_app, (idle_queued a _ (idle_stop s)). apply app_nil_r. Qed.
(** A request for a lost connection ends the engine: nothing is ever queued for one. *)
Theorem C42_lost_connection_accepts_nothing : forall E h s a k h2 s2, reach E h s -> get_conn a (s_conns s) = Some k -> k_alive k = false ->
  run E s h2 = Some s2 -> queued a (s_log s2) = queued a (s_log s).
Proof.
  intros E h s a k h2 s2 H K Hk R. pose proof (reach_all E h s H) as I. clear H. revert s k I K Hk R.
  induction h2 as [|e h2 IH]; intros s k I K Hk R; cbn [run] in R.
  { congruence. }
  destruct (step E s e) as [s1|] eqn:S; [|discriminate]. pose proof (step_trans _ _ _ _ (v_wf E s I) S) as T.
  destruct (trans_lost E s e s1 a k (v_wf E s I) T K Hk) as (k0 & k1 & A & B & C & _).
  rewrite (IH s1 k1 (inv_trans E s e s1 I T) B C R). clear IH R S B C.
  assert (Fw : forall s0 id n o, get_conn a (s_conns s0) = Some k -> fwd s0 id n o s1 -> queued a (s_log s1) = queued a (s_log s0)).
  { intros s0 id n o X F. destruct F as [c k2 F1 F2 F3|c k2 F1 F2 F3].
    - pj. rewrite queued_app. unfold queued at 2. cbn. destruct (baddr_eqb (rc_addr c) a) eqn:Y; [|apply app_nil_r].
      apply baddr_eqb_spec in Y. subst a. congruence.
    - rewrite stop_log_eq, queued_app, (idle_queued a _ (idle_stop s0)). apply app_nil_r. }
  assert (Se : forall s0 b ser i, sent s0 b ser i s1 -> queued a (s_log s1) = queued a (s_log s0)).
  { intros s0 b ser i F. destruct F; [|reflexivity]. pj. rewrite queued_app. apply app_nil_r. }
  destruct T; try reflexivity;
    try (pj; rewrite queued_app; apply app_nil_r); try (rewrite queued_stop; pj; rewrite ?queued_app; try reflexivity; apply app_nil_r).
  - pj. rewrite queued_app, (idle_queued a _ (idle_ends _ _)). apply app_nil_r.
  - pj. rewrite queued_app, (idle_queued a (if ch_engine (s_ch s h0) then _ else _)); [apply app_nil_r|]. destruct (ch_engine (s_ch s h0)); [reflexivity|apply idle_cancel].
  - rewrite (Fw (taken s h0 q n res dropped) _ _ _ K H5). rewrite taken_log. change (OTake n :: cancel_all dropped) with ([OTake n] ++ cancel_all dropped). rewrite !queued_app, (idle_queued a _ (idle_cancel dropped)). apply app_nil_r.
  - pj. change (OTake n :: cancel_all dropped) with ([OTake n] ++ cancel_all dropped). rewrite !queued_app, (idle_queued a _ (idle_cancel dropped)). rewrite !app_nil_r. reflexivity.
  - pj. change (OTake n :: cancel_all dropped) with ([OTake n] ++ cancel_all dropped). rewrite !queued_app, (idle_queued a _ (idle_cancel dropped)). rewrite !app_nil_r. reflexivity.
  - match goal with F : fwd ?x _ _ _ _ |- _ => rewrite (Fw x _ _ _ ltac:(rewrite moved_conns; exact K) F) end. rewrite moved_log, taken_log. change (OTake n :: cancel_all dropped) with ([OTake n] ++ cancel_all dropped). rewrite !queued_app, (idle_queued a _ (idle_cancel dropped)). apply app_nil_r.
  - match goal with F : fwd ?x _ _ _ _ |- _ => rewrite (Fw x _ _ _ ltac:(rewrite moved_conns; exact K) F) end. rewrite moved_log. pj. rewrite queued_app. apply app_nil_r.
  - match goal with F : fwd ?x _ _ _ _ |- _ => rewrite (Fw x _ _ _ ltac:(rewrite moved_conns; pj; apply new_lost; [|exact K]; pose proof (wf_dial E s (v_wf E s I)) as X; rewrite H in X; exact X) F) end. rewrite moved_log. pj. rewrite queued_app. apply app_nil_r.
  - rewrite (Se _ _ _ _ H0). pj. rewrite queued_app. apply app_nil_r.
  - pj. rewrite queued_app. unfold queued at 2. cbn. destruct (baddr_eqb a0 a) eqn:Y; [|apply app_nil_r]. apply baddr_eqb_spec in Y. subst a0. congruence.
  - rewrite (Se _ _ _ _ H4). pj. rewrite queued_app. apply app_nil_r.
Qed.
(** A failed dial and a failed authentication call end the engine at once. *)
Theorem C42_failed_dial_ends_engine : forall E h s l1 a l2, reach E h s -> s_log s = l1 ++ ODial a false :: l2 -> exists r, l2 = OStop :: r.
Proof. intros E h s l1 a l2 H El. destruct (reach_entries E h s H _ _ _ El) as (_ & _ & X). auto. Qed.
Theorem C42_failed_auth_ends_engine : forall E h s l1 n r l2, reach E h s -> s_log s = l1 ++ OAuthed n r :: l2 ->
  (exists d, r = Ok d) \/ exists l, l2 = OStop :: l.
Proof. intros E h s l1 n r l2 H El. destruct (reach_entries E h s H _ _ _ El) as (_ & _ & X). auto. Qed.
(** After the end nothing is taken from any client or connection, nothing is dialled,
    forwarded or registered, for anyone. *)
Theorem C42_end_is_final : forall E h s l1 l2 x, reach E h s -> s_log s = l1 ++ OStop :: l2 -> In x l2 ->
  match x with
  | OTake _ | OHandle _ _ _ | OForward _ _ _ | OAuthed _ _ | ODial _ _ | OPonged _ | OAnswer _ _ _ | OReg _ _ | OStop => False
  | _ => True
  end.
Proof.
  intros E h s l1 l2 x H El Hx. pose proof (reach_entries E h s H) as En. apply in_split in Hx as (p1 & p2 & ->).
  assert (E1 : s_log s = (l1 ++ OStop :: p1) ++ x :: p2) by (rewrite El, <- app_assoc; reflexivity).
  pose proof (En _ _ _ E1) as X. assert (S : In OStop (l1 ++ OStop :: p1)) by apply in_elt.
  assert (Hd : forall l0 a ser i, l1 ++ OStop :: p1 = l0 ++ [OHandle a ser i] -> False).
  { intros l0 a ser i E2. destruct (En l0 (OHandle a ser i) (x :: p2)) as (Z & _); [rewrite E1, E2, <- app_assoc; reflexivity|].
    apply Z. rewrite E2 in S. apply in_app_iff in S as [S|[S|[]]]; [auto|discriminate]. }
  destruct x; auto; cbn in X; try tauto.
  - destruct X as (l0 & ser & X). exact (Hd _ _ _ _ X).
  - destruct X as (l0 & a & i0 & k & X & _). exact (Hd _ _ _ _ X).
  - exact (reach_early E h s H _ _ _ E1 S).
Qed.
Print Assumptions C42_dropped_client_ends_engine.
Print Assumptions C42_lost_connection_ends_engine.
Print Assumptions C42_lost_connection_accepts_nothing.
Print Assumptions C42_failed_dial_ends_engine.
Print Assumptions C42_failed_auth_ends_engine.
Print Assumptions C42_end_is_final.
Example C42_meets_dropped : match run xE sys_init (x_reg2 ++ x_connect 0%nat ++ [EvIssue 1%nat (OFlow 1 5); EvDropClient 1%nat]) with
  | Some s => s_phase s = PRun /\ In (1%nat, 1) (registered (s_log s)) /\ ch_client (s_ch s 1%nat) = false /\ length (ch_up (s_ch s 1%nat)) = 1%nat /\
      match run xE s [EvClient 1%nat; EvClient 1%nat] with Some s2 => In OStop (s_log s2) | None => False end
  | None => False end.
Proof. vm_compute. conjs; try reflexivity; tauto. Qed.
Example C42_meets_lost : match run xE sys_init (x_reg2 ++ x_connect 0%nat ++ [EvNet xA (f_msg 0 1 (str "a")); EvNet xA IEnd]) with
  | Some s => s_phase s = PRun /\ match get_conn xA (s_conns s) with Some k => k_alive k = false /\ length (k_n2e k) = 1%nat | None => False end /\
      match run xE s [EvConn xA; EvConn xA] with Some s2 => In OStop (s_log s2) | None => False end
  | None => False end.
Proof. vm_compute. conjs; try reflexivity; tauto. Qed.
Example C42_meets_failures : match run xE sys_init [EvStart false] with Some s => s_log s = [ODial xA false; OStop] | None => False end /\
  match run (mk_env xcfg (Some (str "token")) true) sys_init (x_reg2 ++ [EvIssue 0%nat (OConnect (mk_connect None None None)); EvClient 0%nat; EvAuth (Err UnsupportedCommand)]) with
  | Some s => In OStop (s_log s) /\ settled (s_log s) = [0%nat] | None => False end.
Proof. vm_compute. conjs; try reflexivity; tauto. Qed.

(** * C43 *)
(** An ERROR (14) or SEND_ERROR (8) frame changes nothing, on any connection that
    still reads frames. *)
Theorem C43_errors_change_nothing : forall E s a k mc, get_conn a (s_conns s) = Some k -> k_alive k = true -> k_errored k = false ->
  type_is mc 14 \/ type_is mc 8 -> step E s (EvNet a (IFrame mc)) = Some s.
Proof.
  intros E s a k mc K Ha He Ht. cbn [step]. rewrite K, Ha, He. cbn [negb andb orb]. unfold conn_net.
  rewrite (C11_broker_errors_unsupported mc Ht). reflexivity.
Qed.
(** A request in flight stays in flight until the engine takes an event that answers
    its kind, takes another request of its kind, or ends. *)
Lemma last_of {A} (l : list A) x l0 y l2 p1 z p2 : l ++ l2 = l0 ++ x :: z :: p2 -> l2 = p1 ++ z :: p2 -> y = x -> (exists p0, p1 = p0 ++ [x] /\ l0 = l ++ p0) \/ (p1 = [] /\ l = l0 ++ [x]).
Proof.
  intros H -> _. destruct p1 as [|w p1] using rev_ind.
  - right. split; auto. cbn in H. change (l0 ++ x :: z :: p2) with (l0 ++ [x] ++ z :: p2) in H. rewrite app_assoc in H. now apply app_inv_tail in H.
  - left. clear IHp1. change (l0 ++ x :: z :: p2) with (l0 ++ [x] ++ z :: p2) in H. rewrite !app_assoc in H. apply app_inv_tail in H.
    apply app_inj_tail in H as [H ->]. exists p1. auto.
Qed.
Theorem C43_stays_in_flight : forall E h s h2 s2 l2 n k, reach E h s -> run E s h2 = Some s2 -> s_log s2 = s_log s ++ l2 ->
  in_flight (s_log s) n k -> ~ In OStop l2 ->
  (forall a ser i, In (OHandle a ser i) l2 -> ~ answers i k) ->
  (forall m o, In (OTake m) l2 -> requested (s_log s2) m o -> kind_of o <> Some k) ->
  in_flight (s_log s2) n k.
Proof.
  intros E h s h2 s2 l2 n k H R El Hf Hs Hh Ht.
  assert (H2 : reach E (h ++ h2) s2) by (unfold reach in *; rewrite run_app, H; exact R).
  pose proof Hf as (o & A & B & C & D & F). exists o. rewrite El. split; [now apply requested_app|]. split; auto. split; auto.
  split; [rewrite takes_app; apply in_app_iff; auto|]. rewrite settled_app, in_app_iff. intros [X|X]; [contradiction|].
  pose proof (reach_entries E h s H) as En1.
  assert (Hk : forall o', requested (s_log s2) n o' -> o' = o).
  { intros o' X'. apply (requested_uniq E _ s2 n o' o H2 X'). rewrite El. now apply requested_app. }
  apply settled_in in X as [(ser & i & X)|X]; apply in_split in X as (p1 & p2 & ->).
  - assert (E2 : s_log s2 = (s_log s ++ p1) ++ OAnswer n ser i :: p2) by (rewrite El, <- app_assoc; reflexivity).
    destruct (C34_answer_of_its_kind E _ s2 _ _ _ _ _ H2 E2) as (l0 & a & i0 & k' & E3 & Ha & Ei & Hf' & An).
    assert (k' = k).
    { destruct Hf' as (o' & [c X1] & X2 & _). rewrite (Hk o') in X2; [congruence|]. exists c. rewrite E2, E3. apply in_app_iff. left. apply in_app_iff. auto. }
    subst k'. assert (E4 : s_log s ++ p1 ++ OAnswer n ser i :: p2 = l0 ++ OHandle a ser i0 :: OAnswer n ser i :: p2) by (rewrite app_assoc, E3, <- app_assoc; reflexivity).
    destruct (last_of (s_log s) (OHandle a ser i0) l0 (OHandle a ser i0) _ p1 (OAnswer n ser i) p2 E4 eq_refl eq_refl) as [(p0 & -> & _)|(-> & E5)].
    + apply (Hh a ser i0); [apply in_app_iff; left; apply in_app_iff; right; now left|]. now rewrite (seen_answers _ _ _ _ Ei) in An.
    + destruct (En1 l0 (OHandle a ser i0) [] E5) as (_ & _ & _ & Z). destruct (flight_waiting l0 n k Hf') as (key & W & K).
      destruct (Z n key W) as (r & Z'); [|discriminate]. rewrite <- (K o B). symmetry. apply (C22_match_iff_answers o i0 k B). now rewrite (seen_answers _ _ _ _ Ei) in An.
  - assert (E2 : s_log s2 = (s_log s ++ p1) ++ OCancel n :: p2) by (rewrite El, <- app_assoc; reflexivity).
    destruct (reach_entries E _ s2 H2 _ _ _ E2) as [X|(l0 & m & key & o' & E3 & W & X1 & X2 & X3)].
    + apply in_app_iff in X as [X|X].
      * apply F. apply (C41_taken_requests_complete E h s n o H); auto. now rewrite (expects_asks o k B).
      * apply Hs. apply in_app_iff. auto.
    + assert (Ko : kind_of o' = Some k).
      { destruct W as (o1 & [c1 W1] & W2 & W3 & _). rewrite <- B. apply C23_key_iff_kind.
        rewrite (Hk o1) in W3; [congruence|]. exists c1. rewrite E2, E3. apply in_app_iff. left. apply in_app_iff. auto. }
      assert (E4 : s_log s ++ p1 ++ OCancel n :: p2 = l0 ++ OTake m :: OCancel n :: p2) by (rewrite app_assoc, E3, <- app_assoc; reflexivity).
      destruct (last_of (s_log s) (OTake m) l0 (OTake m) _ p1 (OCancel n) p2 E4 eq_refl eq_refl) as [(p0 & -> & _)|(-> & E5)].
      * apply (Ht m o'); auto; [apply in_app_iff; left; apply in_app_iff; right; now left|]. destruct X1 as [c X1]. exists c. rewrite E2, E3. apply in_app_iff. left. apply in_app_iff. auto.
      * destruct (En1 l0 (OTake m) [] E5) as (_ & _ & _ & Z). destruct (Z n key o' W X1 X2 X3) as (r & Z'). discriminate.
Qed.
Print Assumptions C43_errors_change_nothing.
Print Assumptions C43_stays_in_flight.
(** A subscription answered with an ERROR: pending, while the client receives messages
    and other requests are answered. *)
Definition x_err : list event := x_reg2 ++ x_connect 0%nat ++ [EvIssue 0%nat (OSubscribe (str "t") (str "s") 0 7 Shared); EvClient 0%nat; EvWrite xA 0 true].
Definition x_err2 : list event := [EvNet xA (f_error 7); EvNet xA (f_msg 0 1 (str "a")); EvConn xA; EvIssue 0%nat (x_ack 0); EvClient 0%nat; EvNet xA (f_ack 0); EvConn xA].
Example C43_meets : match run xE sys_init x_err with
  | Some s => match run xE s x_err2 with
    | Some s2 => takes (s_log s) = [0; 1]%nat /\ settled (s_log s) = [0]%nat /\ takes (s_log s2) = [0; 1; 2]%nat /\ settled (s_log s2) = [0; 2]%nat /\
        existsb (fun x => match x with OStop => true | OHandle _ _ (InSuccess _) => true | _ => false end) (s_log s2) = false
    | None => False end
  | None => False end.
Proof. vm_compute. conjs; reflexivity. Qed.
Example C43_meets_type : match f_error 7, f_send_error 0 1 with IFrame x, IFrame y => type_is x 14 /\ type_is y 8 | _, _ => False end.
Proof. cbn. unfold type_is. cbn. conjs; try reflexivity; tauto. Qed.

(** * C45 *)
Theorem C45_one_connection_per_address : forall E h s, reach E h s -> NoDup (map fst (s_conns s)).
Proof. intros E h s H. exact (i_addr s (v_s E s (reach_all E h s H))). Qed.
(** An address is not dialled again after a successful dial, whatever happened to the connection. *)
Theorem C45_no_dial_after_success : forall E h s l1 a ok l2, reach E h s -> s_log s = l1 ++ ODial a ok :: l2 -> ~ In (ODial a true) l1.
Proof. intros E h s l1 a ok l2 H El. exact (proj1 (reach_entries E h s H _ _ _ El)). Qed.
Theorem C45_dialled_once : forall E h s a, reach E h s ->
  (length (filter (fun x => match x with ODial b true => baddr_eqb b a | _ => false end) (s_log s)) <= 1)%nat.
Proof.
  intros E h s a H. pose proof (reach_entries E h s H) as En.
  assert (G : forall l r, s_log s = l ++ r -> (length (filter (fun x => match x with ODial b true => baddr_eqb b a | _ => false end) l) <= 1)%nat).
  { induction l as [|x l IH] using rev_ind; intros r El; [cbn; lia|]. rewrite <- app_assoc in El. specialize (IH _ El).
    rewrite filter_app, app_length. cbn [filter]. destruct x; cbn [length]; try lia. destruct ok; cbn [length]; try lia.
    destruct (baddr_eqb a0 a) eqn:X; cbn [length]; try lia. apply baddr_eqb_spec in X. subst a0.
    pose proof (proj1 (En _ _ _ El)) as N. destruct (filter _ l) as [|y ys] eqn:Y; cbn; [lia|]. exfalso. apply N.
    assert (Z : In y (filter (fun x => match x with ODial b true => baddr_eqb b a | _ => false end) l)) by (rewrite Y; now left).
    apply filter_In in Z as [Z1 Z2]. destruct y; try discriminate. destruct ok; try discriminate. apply baddr_eqb_spec in Z2. now subst. }
  apply (G _ []). symmetry. apply app_nil_r.
Qed.
(** Every request goes to a connection that has been dialled; every dialled address
    keeps its connection. *)
Theorem C45_connections_are_dialled : forall E h s, reach E h s ->
  (forall a, In (ODial a true) (s_log s) <-> exists k, get_conn a (s_conns s) = Some k) /\
  (forall l1 n a o l2, s_log s = l1 ++ OForward n a o :: l2 -> In (ODial a true) l1).
Proof.
  intros E h s H. split.
  - intros a. rewrite (i_dial s (v_s E s (reach_all E h s H)) a). destruct (get_conn a (s_conns s)) as [k|].
    + split; [intros _; eauto|discriminate].
    + split; [congruence|intros [k X]; discriminate].
  - intros l1 n a o l2 El. destruct (reach_entries E h s H _ _ _ El) as (_ & X & _). exact X.
Qed.
Print Assumptions C45_one_connection_per_address.
Print Assumptions C45_no_dial_after_success.
Print Assumptions C45_dialled_once.
Print Assumptions C45_connections_are_dialled.
(** Two clients connect through the proxy to the same broker: one dial. *)
Definition x_pc : outbound := OConnect (mk_connect None None (Some (Proxy [] (str "pulsar://b1:6650")))).
Definition x_pA : baddr := Proxy (str "pulsar://b:1") (str "pulsar://b1:6650").
Definition x_proxied : list event := x_reg2 ++ x_connect 0%nat ++
  [EvIssue 0%nat x_pc; EvClient 0%nat; EvDial true; EvWrite x_pA 0 true; EvNet x_pA f_connected; EvAnswered;
   EvIssue 1%nat x_pc; EvClient 1%nat; EvWrite x_pA 0 true; EvNet x_pA f_connected; EvAnswered].
Example C45_meets : match run xE sys_init x_proxied with
  | Some s => map fst (s_conns s) = [xA; x_pA] /\ filter (fun x => match x with ODial _ _ => true | _ => false end) (s_log s) = [ODial xA true; ODial x_pA true] /\
      sent_to x_pA (s_log s) = [1; 2]%nat /\ settled (s_log s) = [0; 1; 2]%nat /\ map rc_addr (s_clients s) = [x_pA; x_pA]
  | None => False end.
Proof. vm_compute. conjs; reflexivity. Qed.

(** * C46 *)
Lemma api_connect E h s n r : reach E h s -> requested (s_log s) n (OConnect r) ->
  cn_auth_data r = None /\ cn_auth_method r = None /\ (cn_addr r = None \/ exists p, cn_addr r = Some (Proxy [] p)).
Proof.
  intros H [c Hi]. destruct (c_api E s (v_c E s (reach_all E h s H)) c n _ Hi) as [_ X]. cbn in X.
  destruct (cn_auth_data r); [discriminate|]. destruct (cn_auth_method r); [discriminate|]. destruct (cn_addr r) as [[u|u p]|]; [discriminate| |auto].
  destruct u; [|discriminate]. split; auto. split; auto. right. eauto.
Qed.
(** A connect naming proxied broker [p] goes to a connection for (service url, [p]);
    what is written on it names [p], without "pulsar://", as proxy target. *)
Theorem C46_proxied_connect : forall E h s n a o ok r p now mc, reach E h s -> newids h <= 2 ^ 64 ->
  requested (s_log s) n (OConnect r) -> cn_addr r = Some (Proxy [] p) -> In (OWrite a (Some n) o ok) (s_log s) ->
  to_cmd now o = Ok mc ->
  a = Proxy (base_url (broker_address (e_cfg E))) p /\
  exists sub, carries mc 2 2 sub /\ get_b 6 sub = Some (trim_start_matches (str "pulsar://") p).
Proof.
  intros E h s n a o ok r p now mc H Hn Hr Hp Hw Hm. pose proof (reach_entries E h s H) as En.
  apply in_split in Hw as (l1 & l2 & El). pose proof (En _ _ _ El) as Hf. cbn in Hf.
  assert (Hf' : In (OForward n a o) (s_log s)) by (rewrite El; apply in_app_iff; auto).
  destruct (c_fw E s (v_c E s (reach_all E h s H)) n a o Hf') as (_ & q & Q1 & Q2).
  assert (q = OConnect r) by (eapply requested_uniq; eauto). subst q. destruct Q2 as (d & m & -> & _).
  apply in_split in Hf' as (m1 & m2 & Em). destruct (En _ _ _ Em) as (_ & _ & Htk & _ & q' & [c Q3] & _).
  destruct (Hr) as [c0 Hr0]. destruct (r_uniq s (v_r E s (reach_all E h s H)) c n q' c0 (OConnect r)) as [-> ->]; [rewrite Em; apply in_app_iff; auto|exact Hr0|].
  pose proof (reach_routes E h s H Hn _ _ _ Em c0 _ Q3) as Rt. cbn in Rt. rewrite Hp in Rt. cbn [fill_address baddr_eqb svc] in Rt. split; [exact Rt|].
  injection Hm as <-. rewrite Hp. cbn [fill_address]. eexists. split; [now apply carries_base|].
  unfold connect_sub. cbn. destruct d; destruct m; reflexivity.
Qed.
(** The broker a client is assigned to is the one its view of the log shows. *)
Theorem C46_assignment : forall E h s x, reach E h s -> newids h <= 2 ^ 64 -> ~ In OStop (s_log s) -> In x (s_clients s) ->
  v_home (look (broker_address (e_cfg E)) (rc_h x) (s_log s)) = Some (rc_addr x).
Proof.
  intros E h s x H Hn Hs Hx. apply (w_home E s (reach_views E h s H Hn)); auto. intros X. apply Hs. now apply (i_stop s (v_s E s (reach_all E h s H))).
Qed.
(** A connect that names a proxied broker moves its own client to that broker. *)
Lemma look_end sv c l x : look sv c (l ++ [x]) = look_step sv c (look sv c l) x.
Proof. apply fold_left_app. Qed.
Lemma issue_mine sv c n q l : In (OIssue c n q) l -> in_nat n (v_mine (look sv c l)) = true.
Proof.
  intros H. apply is_in_spec. induction l as [|x l IH] using rev_ind; [destruct H|]. rewrite look_end.
  apply in_app_iff in H as [H|[->|[]]].
  - specialize (IH H). destruct x; cbn [look_step]; auto.
    + destruct (h =? c)%nat; auto. now right.
    + destruct o; auto. destruct (in_nat _ _); auto.
    + destruct i; auto. destruct (_ && _); auto.
    + destruct i; auto. destruct (h =? c)%nat; auto.
    + destruct (h =? c)%nat; auto.
  - cbn [look_step]. rewrite Nat.eqb_refl. now left.
Qed.
Lemma mine_issue sv c n l : in_nat n (v_mine (look sv c l)) = true -> exists q, In (OIssue c n q) l.
Proof.
  intros H. apply is_in_spec in H. induction l as [|x l IH] using rev_ind; [destruct H|]. rewrite look_end in H.
  assert (G : In n (v_mine (look sv c l)) -> exists q, In (OIssue c n q) (l ++ [x])).
  { intros X. destruct (IH X) as [q Q]. exists q. apply in_app_iff. auto. }
  destruct x; cbn [look_step] in H; auto.
  - destruct (Nat.eqb_spec h c) as [->|]; auto. destruct H as [<-|H]; auto. exists o. apply in_app_iff. right. now left.
  - destruct o; auto. destruct (in_nat n0 _); auto.
  - destruct i; auto. destruct (_ && _); auto.
  - destruct i; auto. destruct (h =? c)%nat; auto.
  - destruct (h =? c)%nat; auto.
Qed.
Theorem C46_proxied_connect_moves_caller : forall E h s l1 n a o l2 c r p, reach E h s -> newids h <= 2 ^ 64 ->
  s_log s = l1 ++ OForward n a o :: l2 -> In (OIssue c n (OConnect r)) l1 -> cn_addr r = Some (Proxy [] p) ->
  v_home (look (broker_address (e_cfg E)) c (l1 ++ [OForward n a o])) = Some (Proxy (base_url (broker_address (e_cfg E))) p).
Proof.
  intros E h s l1 n a o l2 c r p H Hn El Hi Hp. pose proof (reach_routes E h s H Hn _ _ _ El c _ Hi) as Rt. cbn in Rt. rewrite Hp in Rt. cbn [fill_address baddr_eqb svc] in Rt.
  destruct (reach_entries E h s H _ _ _ El) as (_ & _ & _ & _ & q & Q1 & Q2).
  assert (q = OConnect r). { destruct Q1 as [c0 Q1]. eapply (r_uniq s (v_r E s (reach_all E h s H)) c0 n _ c); rewrite El; apply in_app_iff; eauto. }
  subst q. destruct Q2 as (d & m & -> & _). fold (svc E). rewrite look_end. cbn [look_step]. rewrite (issue_mine _ c n _ _ Hi). cbn [v_home]. f_equal. exact Rt.
Qed.
(** And nothing else moves a client: between two points its assignment changes only
    by its registration or by a proxied connect of its own; a plain connect goes to
    the broker it is already assigned to. *)
Theorem C46_only_own_proxied_connects_move : forall E h s l1 x l2 c, reach E h s -> newids h <= 2 ^ 64 -> s_log s = l1 ++ x :: l2 ->
  v_home (look (broker_address (e_cfg E)) c (l1 ++ [x])) <> v_home (look (broker_address (e_cfg E)) c l1) ->
  (exists id, x = OReg c id) \/
  exists n a o r p, x = OForward n a o /\ In (OIssue c n (OConnect r)) l1 /\ cn_addr r = Some (Proxy [] p) /\ a = Proxy (base_url (broker_address (e_cfg E))) p.
Proof.
  intros E h s l1 x l2 c H Hn El Hne. fold (svc E) in *. rewrite look_end in Hne. destruct x; cbn [look_step] in Hne; try congruence.
  - destruct (h0 =? c)%nat; cbn in Hne; congruence.
  - right. destruct o as [| |q| | | | | | |]; try congruence. destruct (in_nat n _) eqn:M; [|congruence]. cbn [v_home] in Hne.
    apply mine_issue in M as [q0 M]. pose proof (reach_routes E h s H Hn _ _ _ El c _ M) as Rt. cbn in Rt.
    destruct (reach_entries E h s H _ _ _ El) as (_ & _ & _ & _ & q1 & [c1 Q1] & Q2).
    assert (q1 = q0) by (eapply (r_uniq s (v_r E s (reach_all E h s H)) c1 n _ c); rewrite El; apply in_app_iff; eauto). subst q1.
    destruct q0 as [| |r| | | | | | |]; try (unfold formed in Q2; discriminate).
    destruct (api_connect E h s n r H) as (_ & _ & [Ad|[p Ad]]); [exists c; rewrite El; apply in_app_iff; auto| |].
    + rewrite Ad in Rt. cbn [fill_address] in Rt. unfold svc in Rt at 1. rewrite baddr_eqb_refl in Rt. congruence.
    + rewrite Ad in Rt. cbn [fill_address baddr_eqb] in Rt. exists n, a, (OConnect q), r, p. split; auto.
  - destruct i; try congruence. destruct (_ && _); cbn in Hne; congruence.
  - destruct i; try congruence. destruct (h0 =? c)%nat; cbn in Hne; congruence.
  - destruct (Nat.eqb_spec h0 c) as [->|]; [|congruence]. left. eauto.
Qed.
Theorem C46_plain_connect_stays : forall E h s l1 n a o l2 c r, reach E h s -> newids h <= 2 ^ 64 ->
  s_log s = l1 ++ OForward n a o :: l2 -> In (OIssue c n (OConnect r)) l1 -> cn_addr r = None ->
  v_home (look (broker_address (e_cfg E)) c l1) = Some a.
Proof.
  intros E h s l1 n a o l2 c r H Hn El Hi Ad. pose proof (reach_routes E h s H Hn _ _ _ El c _ Hi) as Rt. cbn in Rt. rewrite Ad in Rt.
  cbn [fill_address] in Rt. unfold svc in Rt at 1. rewrite baddr_eqb_refl in Rt. exact Rt.
Qed.
Print Assumptions C46_proxied_connect.
Print Assumptions C46_assignment.
Print Assumptions C46_proxied_connect_moves_caller.
Print Assumptions C46_only_own_proxied_connects_move.
Print Assumptions C46_plain_connect_stays.
(** Client 0 moves to the proxied broker, client 1 stays. *)
Example C46_meets : match run xE sys_init (firstn 20 x_proxied) with
  | Some s => map rc_addr (s_clients s) = [x_pA; xA] /\ newids (firstn 20 x_proxied) = 2 /\ ~ In OStop (s_log s) /\
      In (OWrite x_pA (Some 1%nat) (OConnect (mk_connect None None (Some x_pA))) true) (s_log s)
  | None => False end.
Proof. vm_compute. conjs; try reflexivity; [intuition discriminate|tauto]. Qed.

(** * C49 *)
Theorem C49_credentials : forall E h s l1 a n c ok l2, reach E h s -> s_log s = l1 ++ OWrite a (Some n) (OConnect c) ok :: l2 ->
  match e_auth E with
  | Some method => cn_auth_method c = Some method /\ exists data, cn_auth_data c = Some data /\ In (OAuthed n (Ok data)) l1 /\
      forall r, In (OAuthed n r) (s_log s) -> r = Ok data
  | None => cn_auth_method c = None /\ cn_auth_data c = None
  end.
Proof.
  intros E h s l1 a n c ok l2 H El. pose proof (reach_entries E h s H) as En. pose proof (En _ _ _ El) as Hf. cbn in Hf.
  apply in_split in Hf as (p1 & p2 & ->). rewrite <- app_assoc in El. destruct (En _ _ _ El) as (_ & _ & _ & _ & q & Q1 & Q2).
  assert (exists r, q = OConnect r) as [r ->]. { destruct q; try discriminate. eauto. }
  destruct Q2 as (d & m & Q2 & Q3). injection Q2 as ->. cbn [cn_auth_method cn_auth_data]. destruct (e_auth E) as [meth|].
  - destruct Q3 as (-> & data & -> & Q4). split; auto. exists data. split; auto. split; [apply in_app_iff; auto|].
    intros r0 Hr. apply (c_au1 E s (v_c E s (reach_all E h s H)) n r0 (Ok data) Hr). rewrite El. apply in_app_iff. auto.
  - destruct Q3 as [-> ->]. auto.
Qed.
(** In the frame: method name and data, or neither. *)
Theorem C49_in_the_frame : forall now c mc, to_cmd now (OConnect c) = Ok mc -> forall method data,
  (cn_auth_method c = Some method -> cn_auth_data c = Some data ->
     exists sub, carries mc 2 2 sub /\ get_b 5 sub = Some method /\ get_b 3 sub = Some data) /\
  (cn_auth_data c = None -> exists sub, carries mc 2 2 sub /\ get_b 5 sub = None /\ get_b 3 sub = None).
Proof.
  intros now c mc [= <-] method data. split.
  - intros Hm Hd. eexists. split; [now apply carries_base|]. unfold connect_sub. rewrite Hm, Hd. destruct (cn_addr c) as [x|]; [destruct (get_proxy x)|]; cbn; auto.
  - intros Hd. eexists. split; [now apply carries_base|]. unfold connect_sub. rewrite Hd. destruct (cn_addr c) as [x|]; [destruct (get_proxy x)|]; cbn; auto.
Qed.
Print Assumptions C49_credentials.
Print Assumptions C49_in_the_frame.
Example C49_meets : match run (mk_env xcfg (Some (str "token")) true) sys_init (x_reg2 ++ [EvIssue 0%nat (OConnect (mk_connect None None None)); EvClient 0%nat; EvAuth (Ok (str "secret")); EvWrite xA 0 true]) with
  | Some s => In (OWrite xA (Some 0%nat) (OConnect (mk_connect (Some (str "secret")) (Some (str "token")) (Some xA))) true) (s_log s) | None => False end.
Proof. vm_compute. tauto. Qed.
