(** C69: a consumer built by the library returns exactly the messages of its
    subscription. *)
From Verif Require Import Bytes Errors Wire Proto Codec SpecFrame SpecCodec Address Message SpecMessage Client SpecKeys SpecClient Consumer SpecConsumer Engine SpecEngine SpecEngine2 Sink SpecStack SinkFacts EngineFacts EngineInv EngineReq EngineEv EngineConn EngineLog EngineView EngineQueue EngineRoute EngineGate EngineNet EngineLife EngineEx CodecFacts MessageFacts PropCodec PropMessage PropClient PropConsumer PropEngine PropEngine2 PropEngine6 PropStack PropReceipt PropRoute.
Open Scope N_scope.

(** Brokers send messages for consumer [id] on a connection only after a subscription
    of client [c] with that id has been written to it. *)
Definition only_after_subscribe (c : nat) (id : N) (l : list obs) : Prop :=
  forall l1 b ser d l2, l = l1 ++ OArrive b ser (InMessage d) :: l2 -> d_cid d = id ->
  exists n topic sub rid t ok, In (OIssue c n (OSubscribe topic sub id rid t)) l1 /\ In (OWrite b (Some n) (OSubscribe topic sub id rid t) ok) l1.

Lemma inbox_handled sv c l : forall d, In d (v_inbox (look sv c l)) -> exists b ser, In (OHandle b ser (InMessage d)) l.
Proof.
  induction l as [|x l IH] using rev_ind; intros d; [intros []|].
  unfold look. rewrite fold_left_app. fold (look sv c l). cbn [fold_left].
  assert (K : forall e, (In e (v_inbox (look sv c l)) -> exists b ser, In (OHandle b ser (InMessage e)) (l ++ [x]))).
  { intros e X. apply IH in X as (b & ser & X). exists b, ser. apply in_app_iff. auto. }
  destruct x; cbn [look_step]; auto.
  - destruct (h =? c)%nat; auto.
  - destruct o; auto. destruct (in_nat _ _); auto.
  - destruct i; auto. destruct (_ && _); auto. cbn [v_inbox]. intros X. apply in_app_iff in X as [X|[->|[]]]; auto. exists a, ser. apply in_app_iff. right. now left.
  - destruct i; auto. destruct (h =? c)%nat; auto.
  - destruct (h =? c)%nat; auto.
Qed.
Definition message_for (id : N) (x : obs) : bool := match x with OArrive _ _ (InMessage d) => d_cid d =? id | _ => false end.
(** Nothing for [id] has arrived: nothing is taken for it, nothing has arrived on any
    connection. *)
Lemma none_inbox E h s c id l : reach E h s -> newids h <= 2 ^ 64 -> initial l (s_log s) -> existsb (message_for id) l = false ->
  (forall d, In d (v_inbox (look (svc E) c l)) -> d_cid d = id) -> v_inbox (look (svc E) c l) = [].
Proof.
  intros H Hn I N D. destruct (v_inbox (look (svc E) c l)) as [|d r] eqn:X; auto. exfalso.
  assert (Hd : In d (v_inbox (look (svc E) c l))) by (rewrite X; now left). specialize (D d (or_introl eq_refl)).
  apply inbox_handled in Hd as (b & ser & Hd). apply in_split in Hd as (p & q & ->). destruct I as [r' I].
  destruct (reach_entries E h s H p (OHandle b ser (InMessage d)) (q ++ r')) as (_ & A & _); [rewrite I, <- app_assoc; reflexivity|].
  apply Bool.not_true_iff_false in N. apply N. apply existsb_exists. exists (OArrive b ser (InMessage d)). split; [apply in_app_iff; auto|]. cbn. now apply N.eqb_eq.
Qed.
Lemma none_arrives id a l : existsb (message_for id) l = false -> messages_for id (SpecEngine.arrivals a l) = [].
Proof.
  induction l as [|x l IH]; [reflexivity|]. cbn [existsb]. intros N. apply orb_false_iff in N as [N1 N2]. specialize (IH N2).
  assert (S : SpecEngine.arrivals a (x :: l) = SpecEngine.arrivals a [x] ++ SpecEngine.arrivals a l) by (change (x :: l) with ([x] ++ l); apply flat_map_app).
  rewrite S, messages_for_app, IH, app_nil_r.
  destruct x; try reflexivity. unfold SpecEngine.arrivals. cbn. rewrite app_nil_r. destruct (baddr_eqb a0 a); [|reflexivity]. destruct i; try reflexivity. cbn in N1 |- *. now rewrite N1.
Qed.
Lemma initial_messages id a b : initial a b -> messages_for id b = [] -> messages_for id a = [].
Proof. intros [r ->] X. rewrite messages_for_app in X. now apply app_eq_nil in X. Qed.
Lemma first_split {A} (f : A -> bool) l : existsb f l = true -> exists p x q, l = p ++ x :: q /\ f x = true /\ existsb f p = false.
Proof.
  induction l as [|x l IH]; [discriminate|]. cbn. destruct (f x) eqn:F.
  - intros _. exists [], x, l. auto.
  - intros X. destruct (IH X) as (p & y & q & -> & Fy & N). exists (x :: p), y, q. cbn. rewrite F. auto.
Qed.
Lemma unconnected_messages id l : messages_for id (flat_map (fun x : nat * inbound => match snd x with InConnected => [] | i => [i] end) l) = messages_for id (map snd l).
Proof. induction l as [|[n i] l IH]; [reflexivity|]. cbn [flat_map map snd]. rewrite messages_for_app, IH. change (i :: map snd l) with ([i] ++ map snd l). rewrite messages_for_app. f_equal. now destruct i. Qed.

Lemma id_reg sv c l : forall i, v_id (look sv c l) = Some i -> In (OReg c i) l.
Proof.
  induction l as [|x l IH] using rev_ind; intros j; [discriminate|]. unfold look. rewrite fold_left_app. fold (look sv c l). cbn [fold_left].
  assert (K : v_id (look sv c l) = Some j -> In (OReg c j) (l ++ [x])) by (intros X; apply in_app_iff; left; auto).
  destruct x; cbn [look_step]; auto.
  - destruct (h =? c)%nat; auto.
  - destruct o; auto. destruct (in_nat _ _); auto.
  - destruct i; auto. destruct (_ && _); auto.
  - destruct i; auto. destruct (h =? c)%nat; auto.
  - destruct (Nat.eqb_spec h c) as [->|]; auto. cbn. intros [= ->]. apply in_app_iff. right. now left.
Qed.
(** What the engine has taken for a client with id [id] is everything for [id] it has
    taken from the connection the client's last request goes to. *)
Lemma inbox_all : forall E h s c id a, reach E h s -> newids h <= 2 ^ 64 -> In (OReg c id) (s_log s) ->
  only_after_subscribe c id (s_log s) ->
  (forall i j cr topic sub rid t, nth_error (requests c (s_log s)) i = Some (OSubscribe topic sub id rid t) -> nth_error (requests c (s_log s)) j = Some (OConnect cr) ->
    (i < j)%nat -> cn_addr cr = None) ->
  a = last (goes (e_cfg E) (broker_address (e_cfg E)) (requests c (s_log s))) (broker_address (e_cfg E)) ->
  v_inbox (look (svc E) c (s_log s)) = messages_for id (handles a (s_log s)).
Proof.
  intros E h s c id a H Hn Rg Ca Ord Ea.
  pose proof (reach_routes E h s H Hn) as Rt.
  assert (Vid : forall l, initial l (s_log s) -> forall d, In d (v_inbox (look (svc E) c l)) -> d_cid d = id).
  { intros l [r I] d Hd. assert (Rl : every (route E) l) by (rewrite I in Rt; eapply route_prefix; eauto). pose proof (inbox_id E c l Rl d Hd) as X.
    apply id_reg in X. assert (Y : In (OReg c (d_cid d)) (s_log s)) by (rewrite I; apply in_app_iff; auto).
    pose proof (reg_is E c (s_log s) _ Rt Y) as Z. rewrite (reg_is E c (s_log s) _ Rt Rg) in Z. congruence. }
  destruct (existsb (message_for id) (s_log s)) eqn:Any.
  - apply first_split in Any as (p & x & q & El & Fx & Np). destruct x; try discriminate. cbn in Fx. destruct i; try discriminate. apply N.eqb_eq in Fx.
    destruct (Ca _ _ _ _ _ El Fx) as (n & topic & sub & rid & t & okw & Is & Wr).
    assert (Ip : initial p (s_log s)) by (rewrite El; eexists; reflexivity).
    assert (Fw : In (OForward n a0 (OSubscribe topic sub id rid t)) p).
    { apply in_split in Wr as (p1 & p2 & ->). assert (El' : s_log s = p1 ++ OWrite a0 (Some n) (OSubscribe topic sub id rid t) okw :: (p2 ++ OArrive a0 ser (InMessage d) :: q)) by (rewrite El, <- app_assoc; reflexivity).
      pose proof (reach_entries E h s H _ _ _ El') as X. cbn in X. apply in_app_iff. now left. }
    assert (Rp : In (OReg c id) p).
    { assert (Fi : In n (forwarded p)) by (unfold forwarded; apply in_flat_map; eexists; split; [exact Fw|now left]).
      destruct (routed E h s c H Hn p Ip) as (A & _). destruct (v_id (look (svc E) c p)) as [i|] eqn:V.
      - apply id_reg in V. assert (Y : In (OReg c i) (s_log s)) by (rewrite El; apply in_app_iff; auto).
        pose proof (reg_is E c (s_log s) _ Rt Y) as Z. rewrite (reg_is E c (s_log s) _ Rt Rg) in Z. congruence.
      - exfalso. specialize (A eq_refl). assert (X : In n (filter (fun n => in_nat n (issued c (s_log s))) (forwarded p))); [|rewrite A in X; contradiction].
        apply filter_In. split; [exact Fi|]. apply is_in_spec, issued_in. eexists. rewrite El. apply in_app_iff. left. exact Is. }
    assert (St : stays (broker_address (e_cfg E)) c a id p (s_log s)).
    { rewrite Ea. eapply C68_stays; eauto. intros m cr Im. destruct (cn_addr cr) as [ad|] eqn:Ad; [right|now left].
      assert (Mm : In m (issued c (s_log s))) by (apply issued_in; eauto). assert (Mn : In n (issued c (s_log s))) by (apply issued_in; eexists; rewrite El; apply in_app_iff; left; exact Is).
      apply In_nth_error in Mm as [j Mj]. 
      set (mine := fun x => in_nat x (issued c (s_log s))).
      assert (Fn : In n (filter mine (forwarded p))).
      { apply filter_In. split; [unfold forwarded; apply in_flat_map; eexists; split; [exact Fw|now left]|]. now apply is_in_spec. }
      apply In_nth_error in Fn as [i Fn]. pose proof (fm_initial E h s c H p Ip) as Fi. pose proof (initial_nth _ _ _ _ Fi Fn) as Ni.
      assert (Ri : nth_error (requests c (s_log s)) i = Some (OSubscribe topic sub id rid t)).
      { pose proof (issue_nth c (s_log s) i) as X. rewrite Ni in X. destruct (nth_error (requests c (s_log s)) i) as [o|]; [|contradiction]. f_equal.
        assert (Y : In (OIssue c n (OSubscribe topic sub id rid t)) (s_log s)) by (rewrite El; apply in_app_iff; left; exact Is).
        now destruct (r_uniq s (v_r E s (reach_all E h s H)) _ _ _ _ _ X Y). }
      assert (Rj : nth_error (requests c (s_log s)) j = Some (OConnect cr)).
      { pose proof (issue_nth c (s_log s) j) as X. rewrite Mj in X. destruct (nth_error (requests c (s_log s)) j) as [o|]; [|contradiction]. f_equal.
        now destruct (r_uniq s (v_r E s (reach_all E h s H)) _ _ _ _ _ X Im). }
      destruct (Nat.lt_trichotomy j i) as [Lt|[->|Lt]]; [|congruence|rewrite (Ord _ _ _ _ _ _ _ Ri Rj Lt) in Ad; discriminate].
      assert (Lj : (j < length (filter mine (forwarded p)))%nat).
      { assert (i < length (filter mine (forwarded p)))%nat by (apply nth_error_Some; congruence). lia. }
      destruct (nth_error (filter mine (forwarded p)) j) as [m'|] eqn:Nj; [|apply nth_error_None in Nj; lia].
      pose proof (initial_nth _ _ _ _ Fi Nj) as Y. assert (m' = m) by congruence. subst m'. apply nth_error_In, filter_In in Nj. apply Nj. }
    pose proof St as St'. rewrite El in St'. pose proof (C38_exactly_the_addressed _ _ _ _ _ _ St') as X. rewrite <- El in X. fold (svc E) in X. rewrite X, (none_inbox E h s c id p H Hn Ip Np (Vid p Ip)). cbn [app].
    assert (Hp : messages_for id (handles a p) = []).
    { destruct (messages_for id (handles a p)) as [|e es] eqn:M; auto. exfalso. assert (Ie : In e (messages_for id (handles a p))) by (rewrite M; now left).
      unfold messages_for, handles in Ie. apply in_flat_map in Ie as (i & Ie & Ii). destruct i; try contradiction. destruct (N.eqb_spec (d_cid d0) id) as [De|]; [|contradiction]. destruct Ii as [->|[]].
      apply in_flat_map in Ie as (y & Iy & Hy). destruct y; try contradiction. destruct (baddr_eqb a1 a); [|contradiction].
      assert (i = InMessage e) as -> by (destruct i; try contradiction; destruct Hy as [Hy|[]]; exact Hy).
      apply in_split in Iy as (p1 & p2 & ->). destruct (reach_entries E h s H p1 (OHandle a1 ser0 (InMessage e)) (p2 ++ OArrive a0 ser (InMessage d) :: q)) as (_ & A & _); [rewrite El, <- app_assoc; reflexivity|].
      apply Bool.not_true_iff_false in Np. apply Np, existsb_exists. exists (OArrive a1 ser0 (InMessage e)). split; [apply in_app_iff; auto|]. cbn. now apply N.eqb_eq. }
    rewrite El, handles_app, messages_for_app, Hp. reflexivity.
  - rewrite (none_inbox E h s c id (s_log s) H Hn (initial_refl _) Any (Vid _ (initial_refl _))).
    destruct (C38_taken_in_order E h s a H) as [[r Hi] _]. pose proof (none_arrives id a _ Any) as Y. rewrite Hi, messages_for_app in Y. apply app_eq_nil in Y as [Y _]. now rewrite Y.
Qed.
(** What a client with id [id] takes is everything for [id] that arrives on the
    connection its last request goes to, if it never asks for a broker after its
    subscription. *)
Theorem C69_all_delivered : forall E h s c id a k, reach E h s -> newids h <= 2 ^ 64 -> In (OReg c id) (s_log s) ->
  only_after_subscribe c id (s_log s) ->
  (forall i j cr topic sub rid t, nth_error (requests c (s_log s)) i = Some (OSubscribe topic sub id rid t) -> nth_error (requests c (s_log s)) j = Some (OConnect cr) ->
    (i < j)%nat -> cn_addr cr = None) ->
  a = last (goes (e_cfg E) (broker_address (e_cfg E)) (requests c (s_log s))) (broker_address (e_cfg E)) ->
  s_phase s <> PStop -> ch_client (s_ch s c) = true -> get_conn a (s_conns s) = Some k ->
  messages (gots c (s_log s)) ++ messages (ch_down (s_ch s c)) ++ messages_for id (map snd (k_n2e k)) = messages_for id (SpecEngine.arrivals a (s_log s)).
Proof.
  intros E h s c id a k H Hn Rg Ca Ord Ea Ph Cl K. rewrite <- (look_gots (svc E)).
  destruct (C38_received_in_order E h s c H Hn) as [_ Inb]. specialize (Inb Cl). fold (svc E) in Inb.
  destruct (C38_taken_in_order E h s a H) as [_ Tk]. specialize (Tk k K Ph).
  rewrite app_assoc, <- Inb, (inbox_all E h s c id a H Hn Rg Ca Ord Ea), Tk, messages_for_app, unconnected_messages. reflexivity.
Qed.
Print Assumptions C69_all_delivered.

(** Where the messages of a consumer come from, by the replies to its handshake. *)
Definition broker_of (cfg : config) (rs : list reply) : baddr :=
  match asks_proxy rs with None => broker_address cfg | Some target => Proxy (base_url (broker_address cfg)) target end.
Lemma built_shape id name topic sub permits rs made : exec (consumer_connect id name topic sub permits Client.fresh) rs = (made, Some (Ok tt)) ->
  made = match asks_proxy rs with
         | None => [plain_connect; OLookup 0 topic; OSubscribe topic sub id 1 Shared; OFlow id (2 * permits)]
         | Some t => [plain_connect; OLookup 0 topic; proxy_connect t; OLookup 1 topic; OSubscribe topic sub id 2 Shared; OFlow id (2 * permits)]
         end.
Proof.
  intros X. rewrite C20_consumer_handshake in X. destruct (asks_proxy rs) as [t|].
  - apply walk_all in X as [-> _]; [reflexivity|]. intros o v Y. apply in_app_iff in Y as [Y|Y]; [eapply proxied_fine; eauto|eapply subscribe_fine; eauto].
  - apply walk_all in X as [-> _]; [reflexivity|]. intros o v Y. apply in_app_iff in Y as [Y|Y]; [eapply direct_fine; eauto|eapply subscribe_fine; eauto].
Qed.
Lemma after_app_made cfg home os more : after cfg home (os ++ more) = after cfg (after cfg home os) more.
Proof. unfold after. apply fold_left_app. Qed.
(** A consumer that has made no further connect asks for no broker after its
    subscription, and its requests go to its broker. *)
Lemma built_settled E l c id name topic sub permits rs made more : exec (consumer_connect id name topic sub permits Client.fresh) rs = (made, Some (Ok tt)) ->
  requests c l = made ++ more -> (forall cr, ~ In (OConnect cr) more) ->
  (forall i j cr topic sub rid t, nth_error (requests c l) i = Some (OSubscribe topic sub id rid t) -> nth_error (requests c l) j = Some (OConnect cr) ->
    (i < j)%nat -> cn_addr cr = None) /\
  broker_of (e_cfg E) rs = last (goes (e_cfg E) (broker_address (e_cfg E)) (requests c l)) (broker_address (e_cfg E)).
Proof.
  intros X Rq Nm. apply built_shape in X. split.
  - intros i j cr tp sb rid t Hi Hj Lt. rewrite Rq in Hi, Hj. destruct (Nat.lt_ge_cases j (length made)) as [Lj|Lj].
    + rewrite nth_error_app1 in Hi, Hj by lia. exfalso. subst made. destruct (asks_proxy rs).
      * do 6 (destruct j as [|j]; [destruct i as [|[|[|[|[|[|i]]]]]]; try discriminate; lia|]). cbn in Lj. lia.
      * do 4 (destruct j as [|j]; [destruct i as [|[|[|[|i]]]]; try discriminate; lia|]). cbn in Lj. lia.
    + rewrite nth_error_app2 in Hj by lia. apply nth_error_In in Hj. elim (Nm cr Hj).
  - rewrite Rq, after_last, after_app_made, after_plain by (intros cr Z; elim (Nm cr Z)). subst made. unfold broker_of, broker_address. destruct (asks_proxy rs); reflexivity.
Qed.
(** The broker has written the frames of [mcs] to its connection [a]; the network has
    delivered [n] of them and part of the next. A consumer was built on client [c],
    with some replies [rs], and has since made requests other than connects (as
    next_message, next_batch and ack do); brokers send messages for its id only after
    they were sent its subscription. Then the messages its next_message calls have
    returned, those in the consumer and those on their way are, in this order and each
    once, exactly those for the consumer's id in the frames that have arrived. *)
Theorem C69_built_consumer_returns_all : forall T (decode : bytes -> option T) oc E h s c id name topic sub permits rs made more k hc cs mcs frames reads n part,
  let a := broker_of (e_cfg E) rs in
  Forall sendable mcs -> Forall2 (fun mc b => encode oc mc = Ok b) mcs frames -> (n <= length frames)%nat ->
  concat reads = concat (firstn n frames) ++ part ->
  (part = [] \/ exists more, more <> [] /\ nth_error frames n = Some (part ++ more)) ->
  reach E h s -> newids h <= 2 ^ 64 -> nets a h = stream_items reads false -> In (OReg c id) (s_log s) ->
  exec (consumer_connect id name topic sub permits Client.fresh) rs = (made, Some (Ok tt)) ->
  requests c (s_log s) = made ++ more -> (forall cr, ~ In (OConnect cr) more) ->
  only_after_subscribe c id (s_log s) ->
  s_phase s <> PStop -> ch_client (s_ch s c) = true -> get_conn a (s_conns s) = Some k ->
  only_next_message hc -> reaches decode permits hc cs -> SpecConsumer.arrivals hc = gots c (s_log s) ++ ch_down (s_ch s c) ->
  returned (c_log cs) ++ pending decode cs ++ stream decode (map InMessage (messages_for id (map snd (k_n2e k)))) =
  stream decode (map InMessage (messages_for id (events (map IFrame (firstn n mcs))))).
Proof.
  intros T decode oc E h s c id name topic sub permits rs made more k hc cs mcs frames reads n part a F F2 Ln Cr Pa H Hn Nt Rg X Rq Nm Ca Ph Cl K On Re Ar.
  rewrite (C02_stream_reassembly oc mcs frames reads n part F F2 Ln Cr Pa) in Nt.
  destruct (built_settled E (s_log s) c id name topic sub permits rs made more X Rq Nm) as [Ord Ea]. fold a in Ea.
  pose proof (C69_all_delivered E h s c id a k H Hn Rg Ca Ord Ea Ph Cl K) as D.
  rewrite (reach_nets E h s a H), Nt in D. rewrite <- D, app_assoc, (C25_exactly_once_in_order T decode permits hc cs On Re), Ar.
  rewrite stream_messages, messages_app, !map_app, !stream_app, <- !app_assoc. reflexivity.
Qed.
Print Assumptions C69_built_consumer_returns_all.

(** A consumer built behind the proxy; four messages have arrived for it or another
    consumer, one has been returned; of the next frame three bytes have arrived. *)
Definition w_events : list event :=
  [EvStart true; EvNewId; EvRegister 0 (str "t"); EvReg; EvConfirm 0%nat;
   EvIssue 0%nat plain_connect; EvClient 0%nat; EvWrite xA 0 true; EvNet xA f_connected; EvAnswered;
   EvIssue 0%nat (OLookup 0 (str "t")); EvClient 0%nat; EvWrite xA 0 true; EvNet xA (f_lookup 0 (str "u") 1); EvConn xA;
   EvIssue 0%nat (proxy_connect (str "u")); EvClient 0%nat; EvDial true; EvWrite xP 0 true; EvNet xP f_conn1; EvAnswered;
   EvIssue 0%nat (OLookup 1 (str "t")); EvClient 0%nat; EvWrite xP 0 true; EvNet xP (f_lookup 1 (str "u") 0); EvConn xP;
   EvIssue 0%nat (OSubscribe (str "t") (str "s") 0 2 Shared); EvClient 0%nat; EvWrite xP 0 true; EvNet xP (f_success 2); EvConn xP;
   EvIssue 0%nat (OFlow 0 500); EvClient 0%nat; EvWrite xP 0 true;
   EvNet xP (f_msg 0 1 (str "a")); EvNet xP (f_msg 4 2 (str "b")); EvNet xP (f_msg 0 3 (str "c")); EvNet xP (f_msg 0 5 (str "e"));
   EvConn xP; EvConn xP; EvConn xP; EvRecv 0%nat].
Definition w_mcs : list msg_cmd := flat_map (fun x => match x with IFrame mc => [mc] | _ => [] end)
  [f_conn1; f_lookup 1 (str "u") 0; f_success 2; f_msg 0 1 (str "a"); f_msg 4 2 (str "b"); f_msg 0 3 (str "c"); f_msg 0 5 (str "e"); f_ping].
Definition w_frames : list bytes := map (fun mc => match encode true mc with Ok b => b | _ => [] end) w_mcs.
Definition w_reads : list bytes := let b := concat (firstn 7 w_frames) ++ firstn 3 (nth 7 w_frames []) in [firstn 1 b; firstn 40 (skipn 1 b); []; skipn 41 b].
Definition w_log : list obs := Eval vm_compute in log_of w_events.
Lemma w_log_eq : log_of w_events = w_log. Proof. vm_compute. reflexivity. Qed.
Definition w_hc : list cev :=
  [Arrive (InMessage (DSingle 0 [(1, PInt 7); (2, PInt 1)] (str "a"))); Arrive (InMessage (DSingle 0 [(1, PInt 7); (2, PInt 3)] (str "c")));
   Start 0%nat NextMessage; Step 0%nat; Step 0%nat; Step 0%nat; Step 0%nat].
Lemma run_some h (P : sys -> Prop) : match run xE sys_init h with Some s => P s | None => False end -> exists s, reach xE h s /\ P s.
Proof. unfold reach. destruct (run xE sys_init h) as [s|]; [now exists s|contradiction]. Qed.
Lemma crun_some hc (P : cons bytes -> Prop) : match crun (fun b => Some b) (cons_init 250) hc with Some s => P s | None => False end -> exists s, reaches (fun b => Some b) 250 hc s /\ P s.
Proof. unfold reaches. destruct (crun (fun b => Some b) (cons_init 250) hc) as [s|]; [now exists s|contradiction]. Qed.
Lemma w_causal : only_after_subscribe 0%nat 0 w_log.
Proof.
  unfold w_log. intros l1 b ser d l2 El D. splits El; try discriminate D.
  all: exists 4%nat, (str "t"), (str "s"), 2, Shared, true; split; cbn [In]; repeat (first [now left|right]).
Qed.
Example C69_meets : exists s k cs,
  let a := broker_of (e_cfg xE) x_rs in a = xP /\
  Forall sendable w_mcs /\ Forall2 (fun mc b => encode true mc = Ok b) w_mcs w_frames /\ (7 <= length w_frames)%nat /\
  concat w_reads = concat (firstn 7 w_frames) ++ firstn 3 (nth 7 w_frames []) /\
  (exists more, more <> [] /\ nth_error w_frames 7 = Some (firstn 3 (nth 7 w_frames []) ++ more)) /\
  reach xE w_events s /\ newids w_events <= 2 ^ 64 /\ nets a w_events = stream_items w_reads false /\ In (OReg 0%nat 0) (s_log s) /\
  exec (consumer_connect 0 (str "n") (str "t") (str "s") 250 Client.fresh) x_rs = (x_made, Some (Ok tt)) /\
  requests 0%nat (s_log s) = x_made ++ [] /\ only_after_subscribe 0%nat 0 (s_log s) /\
  s_phase s <> PStop /\ ch_client (s_ch s 0%nat) = true /\ get_conn a (s_conns s) = Some k /\
  only_next_message w_hc /\ reaches (fun b => Some b) 250 w_hc cs /\ SpecConsumer.arrivals w_hc = gots 0%nat (s_log s) ++ ch_down (s_ch s 0%nat) /\
  map cm_payload (returned (c_log cs)) = [str "a"] /\ length (messages_for 0 (map snd (k_n2e k))) = 1%nat.
Proof.
  destruct (run_some w_events (fun s => s_log s = w_log /\ s_phase s <> PStop /\ ch_client (s_ch s 0%nat) = true /\
     match get_conn xP (s_conns s) with Some k => length (messages_for 0 (map snd (k_n2e k))) = 1%nat | None => False end /\
     ch_down (s_ch s 0%nat) = [InMessage (DSingle 0 [(1, PInt 7); (2, PInt 3)] (str "c"))])) as (s & R & L & Ph & Cl & Kn & Dn).
  { vm_compute. repeat split; discriminate. }
  destruct (crun_some w_hc (fun cs => map cm_payload (returned (c_log cs)) = [str "a"])) as (cs & RC & C); [vm_compute; reflexivity|].
  destruct (get_conn xP (s_conns s)) as [k|] eqn:K; [|contradiction]. exists s, k, cs. cbv zeta. change (broker_of (e_cfg xE) x_rs) with xP. split; [reflexivity|].
  split; [let l := eval vm_compute in w_mcs in change w_mcs with l; repeat (apply Forall_cons; [split; vm_compute; reflexivity|]); constructor|].
  split; [let l := eval vm_compute in w_mcs in let m := eval vm_compute in w_frames in change w_mcs with l; change w_frames with m;
    repeat (apply Forall2_cons; [vm_compute; reflexivity|]); constructor|].
  split; [vm_compute; lia|]. split; [vm_compute; reflexivity|]. split; [exists (skipn 3 (nth 7 w_frames [])); split; vm_compute; [discriminate|reflexivity]|].
  split; [exact R|]. split; [vm_compute; discriminate|]. split; [vm_compute; reflexivity|]. rewrite L.
  split; [unfold w_log; cbn [In]; tauto|]. split; [exact x_made_eq|]. split; [vm_compute; reflexivity|]. split; [exact w_causal|].
  split; [exact Ph|]. split; [exact Cl|]. split; [exact K|]. split; [|split; [exact RC|split; [rewrite Dn; vm_compute; reflexivity|split; [exact C|exact Kn]]]].
  intros t q X. repeat (destruct X as [X|X]; [inversion X; reflexivity || discriminate|]). destruct X.
Qed.
