(** C90: every ping that arrives gets its pong. *)
From Verif Require Import Bytes Errors Wire Proto Codec Address Message SpecCodec SpecMessage Consumer SpecConsumer Client SpecKeys SpecClient Engine SpecEngine SpecEngine2 EngineFacts EngineInv EngineReq EngineEv EngineConn EngineLog EngineView EngineQueue EngineRoute EngineNet EngineGate EngineLife EngineEx SpecTurn TurnFacts SpecStack SpecAnswered SpecLoop SpecRest SpecEnd SpecBuild SpecOwed SpecFinish SpecServe SpecGroup PropConsumer PropFlow PropMessage PropClient PropEngine PropEngine2 PropEngine3 PropEngine6 PropTurn PropReceipt PropAnswered PropStart PropLoop PropStack PropRoute PropDeliver PropOwed PropEnd PropRest PropBuild PropFinish PropServe PropGroup PropReceive.
Open Scope nat_scope.

(** The pings among the items the stream of a connection has yielded. *)
Definition is_ping (i : inbound) : bool := match i with InPing => true | _ => false end.
Definition pings_in (l : list item) : nat := length (filter is_ping (events l)).

Lemma handled_pings a l : length (filter is_ping (handles a l)) = pings a l.
Proof.
  induction l as [|x l IH]; [reflexivity|]. change (x :: l) with ([x] ++ l). rewrite handles_app, filter_app, app_length, pings_app, IH. f_equal.
  destruct x; try reflexivity. unfold handles, pings. cbn [flat_map filter]. destruct i; destruct (baddr_eqb _ _); reflexivity.
Qed.
(** Without the end of the engine, every ping taken is followed by its pong. *)
Lemma ponged_all a : forall n l, length l <= n -> ~ In OStop l ->
  (forall l1 b ser l2, l = l1 ++ OHandle b ser InPing :: l2 -> exists r, l2 = OPonged b :: r \/ l2 = OStop :: r) -> pings a l <= pongs a l.
Proof.
  induction n as [|n IH]; intros l Ln Ns F.
  - destruct l; [apply Nat.le_refl|cbn in Ln; lia].
  - destruct l as [|x l]; [apply Nat.le_refl|]. cbn [length] in Ln.
    assert (Fl : forall u v, l = u ++ v -> forall l1 b ser l2, v = l1 ++ OHandle b ser InPing :: l2 -> exists r, l2 = OPonged b :: r \/ l2 = OStop :: r)
      by (intros u v El l1 b ser l2 Ev; apply (F (x :: u ++ l1) b ser l2); rewrite El, Ev; cbn [app]; now rewrite app_assoc).
    assert (D : (exists b ser, x = OHandle b ser InPing) \/ pings a [x] = 0).
    { destruct x; try (right; reflexivity). destruct i; try (right; reflexivity). left. eauto. }
    change (x :: l) with ([x] ++ l). rewrite pings_app, pongs_app. destruct D as [(b & ser & ->)|D].
    + destruct (F [] b ser l eq_refl) as [r [->| ->]]; [|elim Ns; right; now left].
      specialize (IH r ltac:(cbn [length] in Ln; lia) (fun Y => Ns (or_intror (or_intror Y))) (Fl [OPonged b] r eq_refl)).
      change (OPonged b :: r) with ([OPonged b] ++ r). rewrite pings_app, pongs_app.
      assert (B : pings a [OHandle b ser InPing] = pongs a [OPonged b]) by (unfold pings, pongs; cbn [filter length]; destruct (baddr_eqb b a); reflexivity).
      rewrite B. change (pings a [OPonged b]) with 0. lia.
    + rewrite D. specialize (IH l ltac:(lia) (fun Y => Ns (or_intror Y)) (Fl [] l eq_refl)). lia.
Qed.
Lemma own_written_eq E h s a : reach E h s -> pong_writes a (s_log s) = PropEngine2.own (written a (s_log s)).
Proof.
  intros H. assert (G : forall b o ok, In (OWrite b None o ok) (s_log s) -> o = OPong) by (intros b o ok; apply (C40_engine_writes_pongs E h s b o ok H)).
  revert G. generalize (s_log s) as l. induction l as [|x l IH]; intros G; [reflexivity|].
  change (x :: l) with ([x] ++ l). rewrite written_app, PropEngine2.own_app. unfold pong_writes in *. rewrite filter_app, app_length, IH by (intros b o ok Y; apply (G b o ok); now right). f_equal.
  destruct x; try reflexivity. unfold written. cbn [flat_map app]. destruct src as [n|].
  - cbn [filter length]. destruct (baddr_eqb _ _); reflexivity.
  - rewrite (G a0 o ok (or_introl eq_refl)). cbn [filter]. destruct (baddr_eqb _ _); reflexivity.
Qed.
(** The pongs among the commands read are the engine's own. *)
Lemma pongs_read E h s a : reach E h s -> forall mcs, Forall2 request_of (written a (s_log s)) mcs -> length (filter is_pong mcs) = PropEngine2.own (written a (s_log s)).
Proof.
  intros H. assert (G : forall src o, In (src, o) (written a (s_log s)) -> wire_type o = 19%Z <-> src = None).
  { intros src o X. pose proof (written_from E h s a src o H X) as W. destruct src as [n|].
    - destruct W as (_ & c & q & _ & Ap & Q). split; [|discriminate]. intros T. exfalso. destruct q; try discriminate Ap; try (subst o; discriminate T).
      destruct Q as (d & m & ->). discriminate T.
    - subst o. split; reflexivity. }
  revert G. generalize (written a (s_log s)) as w. intros w G mcs F. induction F as [|x mc w mcs R F IH]; [reflexivity|].
  pose proof (request_type x mc R) as T. destruct x as [src o]. cbn [snd] in T. pose proof (G src o (or_introl eq_refl)) as Go.
  specialize (IH (fun src o Y => G src o (or_intror Y))). unfold PropEngine2.own in *. cbn [filter fst]. unfold is_pong at 1. rewrite T.
  destruct src as [n|].
  - assert (N : wire_type o <> 19%Z) by (intros Y; apply Go in Y; discriminate Y).
    destruct o; try exact IH. elim N. reflexivity.
  - rewrite (proj2 Go eq_refl). cbn [length]. now rewrite IH.
Qed.

(** When an instance that is up has come to rest, and no connect waits for its answer,
    it has written a pong for every ping that has arrived on every connection; and if
    no write has failed on the wire, that many pongs are what a broker that has read
    everything has decoded. *)
Theorem C90_pings_answered_at_rest : forall E rank h s a, reach E h s -> as_polled E rank h -> at_rest E rank h s -> ~ In OStop (s_log s) ->
  (forall n, ~ in_flight (s_log s) n KConnect) -> registered (s_log s) <> [] -> In (ODial a true) (s_log s) ->
  pong_writes a (s_log s) = pings_in (nets a h) /\
  forall io reads, sensible E (s_log s) -> writes_succeed E a io h -> concat reads = wire E a io h ->
    exists mcs, stream_items reads false = map IFrame mcs /\ length (filter is_pong mcs) = pings_in (nets a h).
Proof.
  intros E rank h s a H Po A Ns Nc Rg Da.
  assert (W : PropEngine2.own (written a (s_log s)) = pings_in (nets a h)).
  { destruct (C82_at_rest E rank h s H Po A) as [[X _]|(_ & Wr & [(m & b & r & _ & X)|(_ & _ & _ & _ & Op)])]; [contradiction|elim (Nc m X)|].
    destruct (Op Rg a Da) as [K Hd]. rewrite (Wr a K), PropEngine2.own_queued. unfold pings_in. rewrite <- (reach_nets E h s a H), <- Hd, handled_pings.
    apply Nat.le_antisymm; [exact (proj2 (C40_no_more_pongs E h s a H))|]. apply (ponged_all a (length (s_log s)) (s_log s) (Nat.le_refl _) Ns).
    intros l1 b ser l2 El. exact (C40_ping_then_pong E h s l1 b ser l2 H El). }
  split; [now rewrite (own_written_eq E h s a H)|]. intros io reads Se Wo C.
  destruct (C60_wire_bytes E h s a io reads H Wo (sensible_queued E h s a H Se) C) as (mcs & M1 & M2). exists mcs. split; [exact M1|].
  now rewrite (pongs_read E h s a H mcs M2).
Qed.
Print Assumptions C90_pings_answered_at_rest.

(** The answers of a continuation are no pings. *)
Lemma helped_pings E will s h s2 : helped E will s h s2 -> forall a, pings_in (nets a h) = 0.
Proof.
  intros R a. induction R as [s|s e s1 h2 s2 W S _ IH|s b mc i s1 h2 s2 Sd To Wl Ow S _ IH]; [reflexivity| |].
  - assert (Ee : nets a (e :: h2) = nets a h2) by (destruct e; try contradiction; reflexivity). rewrite Ee. exact IH.
  - change (EvNet b (IFrame mc) :: h2) with ([EvNet b (IFrame mc)] ++ h2). unfold pings_in, nets in *. rewrite flat_map_app. unfold events in *. rewrite flat_map_app, filter_app, app_length, IH, Nat.add_0_r.
    cbn [flat_map app]. destruct (baddr_eqb b a); [|reflexivity]. cbn [flat_map app]. rewrite To.
    destruct i; try reflexivity. exfalso. destruct Ow as (l1 & n & o & ok & l2 & k & _ & _ & _ & An & _). exact An.
Qed.
(** From every reachable state of an instance in which nothing has failed and a client is
    registered: there is a continuation by which every ping that has arrived by now, on
    every connection, gets its pong written, and no more are written. *)
Theorem C90_every_ping_answered : forall E will rank h s, some_answer will -> reach E h s -> as_polled E rank h -> unharmed E h -> sensible E (s_log s) -> registered (s_log s) <> [] ->
  exists h2 s2, helped E will s h2 s2 /\ reach E (h ++ h2) s2 /\ as_polled E rank (h ++ h2) /\ unharmed E (h ++ h2) /\
    forall a, In (ODial a true) (s_log s) -> pong_writes a (s_log s2) = pings_in (nets a h).
Proof.
  intros E will rank h s Wi H Po U Se Rg.
  destruct (C85_can_always_finish E will rank h s Wi H Po U Se) as (h2 & s2 & R2 & H2 & Po2 & A2 & U2 & Se2 & Ns & Nl & An & Rq & Fin).
  exists h2, s2. repeat (split; [assumption|]). intros a Da.
  assert (G : exists d, s_log s2 = s_log s ++ d) by (apply (run_log E h2 s s2 (reach_all E h s H)); unfold reach in H2; rewrite run_app, H in H2; exact H2).
  destruct G as [d Ld].
  assert (Rg2 : registered (s_log s2) <> []) by (rewrite Ld; unfold registered in *; rewrite flat_map_app; intros Y; apply app_eq_nil in Y as [Y _]; contradiction).
  assert (Da2 : In (ODial a true) (s_log s2)) by (rewrite Ld; apply in_app_iff; now left).
  destruct (C90_pings_answered_at_rest E rank _ s2 a H2 Po2 A2 Ns (C84_no_connect_left E rank _ s2 H2 Po2 A2 Ns Nl An) Rg2 Da2) as [X _].
  rewrite X. unfold pings_in, nets. rewrite flat_map_app. unfold events. rewrite flat_map_app, filter_app, app_length.
  fold (events (nets a h2)). pose proof (helped_pings E will s h2 s2 R2 a) as Z. unfold pings_in in Z. unfold events, nets in *. rewrite Z. apply Nat.add_0_r.
Qed.
Print Assumptions C90_every_ping_answered.

(** A state in which a ping has arrived that has no pong yet; and one at rest in which
    it has. *)
Definition p_events : list event := w_events ++ [EvNet xP f_ping].
Definition p_rest : list event := [EvConn xP; EvConn xP; EvWrite xP 0 true].
Definition p_log : list obs := Eval vm_compute in log_of p_events.
Example C90_meets : exists s, reach xE p_events s /\ (forall rank, as_polled xE rank p_events) /\ unharmed xE p_events /\ sensible xE (s_log s) /\ registered (s_log s) <> [] /\
  In (ODial xP true) (s_log s) /\ pings_in (nets xP p_events) = 1 /\ pong_writes xP (s_log s) = 0.
Proof.
  unfold reach. destruct (run xE sys_init p_events) as [s|] eqn:R; [|vm_compute in R; discriminate].
  exists s. split; [reflexivity|]. split; [apply orderly_polled; vm_compute; reflexivity|].
  assert (El : s_log s = p_log) by (vm_compute in R; injection R as <-; reflexivity).
  assert (Se : sensible xE (s_log s)).
  { rewrite El. split; [|split; [exact Logic.I|]].
    - unfold p_log. intros c n o X. cbn [In] in X.
      repeat (destruct X as [X|X]; [first [discriminate X|injection X as <- <- <-; split; [cbn [req_ok]; unfold opt_ok, string_ok, u64, mid_ok; repeat (first [apply Forall_cons|apply Forall_nil|split]); try exact Logic.I; vm_compute; reflexivity|vm_compute; reflexivity]]|]). destruct X.
    - intros d [->|[n X]]; [vm_compute; reflexivity|]. unfold p_log in X. cbn [In] in X. repeat (destruct X as [X|X]; [discriminate X|]). destruct X. }
  split; [apply (benign_unharmed xE p_events s R Se); vm_compute; reflexivity|]. split; [exact Se|].
  rewrite El. split; [vm_compute; discriminate|]. split; [unfold p_log; cbn [In]; tauto|]. split; vm_compute; reflexivity.
Qed.
Example C90_meets_rest : exists s, reach xE (p_events ++ p_rest) s /\ (forall rank, as_polled xE rank (p_events ++ p_rest) /\ at_rest xE rank (p_events ++ p_rest) s) /\ ~ In OStop (s_log s) /\
  (forall n, ~ in_flight (s_log s) n KConnect) /\ registered (s_log s) <> [] /\ In (ODial xP true) (s_log s) /\ pings_in (nets xP (p_events ++ p_rest)) = 1 /\ pong_writes xP (s_log s) = 1.
Proof.
  unfold reach. destruct (run xE sys_init (p_events ++ p_rest)) as [s|] eqn:R; [|vm_compute in R; discriminate]. exists s. split; [reflexivity|].
  assert (Po : forall rank, as_polled xE rank (p_events ++ p_rest)) by (apply orderly_polled; vm_compute; reflexivity).
  assert (Qt : quiet s).
  { vm_compute in R. injection R as <-. unfold quiet. cbn [s_phase]. split; [reflexivity|]. split; [reflexivity|]. split; [|split].
    - intros c X. cbn [s_clients In] in X. repeat (destruct X as [<-|X]; [split; vm_compute; reflexivity|]). destruct X.
    - intros a k K. cbn [s_conns get_conn] in K. repeat (destruct (baddr_eqb a _) in K; [injection K as <-; reflexivity|]); discriminate.
    - intros _ a (k & K & N). cbn [s_conns get_conn] in K. repeat (destruct (baddr_eqb a _) in K; [injection K as <-; apply N; split; reflexivity|]); discriminate. }
  split; [intros rank; split; [apply Po|exact (quiet_rest xE rank _ s R Qt)]|].
  assert (Ns : ~ In OStop (s_log s)) by (rewrite <- (i_stop s (v_s xE s (reach_all xE _ s R))); vm_compute in R; injection R as <-; discriminate).
  split; [exact Ns|]. split.
  { destruct (C82_at_rest xE (fun _ _ => 0) _ s R (Po _) (quiet_rest xE _ _ s R Qt)) as [[X _]|(_ & _ & [(m & a & c & _ & (o & X1 & X2 & _ & _ & X5))|(_ & _ & X & _)])]; [contradiction| |exact X].
    exfalso. apply X5. destruct X1 as [c' X1]. revert X2 X1. clear - R. vm_compute in R. injection R as <-. intros K X. cbn [s_log In] in X. repeat (destruct X as [X|X]; [first [discriminate X|injection X as <- <- <-; first [discriminate K|vm_compute; tauto]]|]). destruct X. }
  vm_compute in R. injection R as <-.
  split; [vm_compute; discriminate|]. split; [cbn [s_log In]; tauto|]. split; vm_compute; reflexivity.
Qed.
