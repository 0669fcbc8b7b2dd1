(** C38-C40: messages, commands and keep-alives on their way through the engine. *)
From Verif Require Import Bytes Errors Wire Proto Codec Address Message Client SpecKeys Engine SpecEngine SpecEngine2 EngineFacts EngineInv EngineReq EngineEv EngineConn EngineLog EngineView EngineQueue EngineRoute EngineGate EngineEx PropMessage PropEngine.
Open Scope N_scope.

(** * C38 *)
Lemma every_app_l Q l c : every (fun l1 x _ => Q l1 x) (l ++ c) -> every (fun l1 x _ => Q l1 x) l.
Proof. intros H l1 x l2 ->. rewrite <- app_assoc in H. exact (H l1 x (l2 ++ c) eq_refl). Qed.
Lemma route_prefix E l c : every (route E) (l ++ c) -> every (route E) l.
Proof. intros H l1 x l2 ->. rewrite <- app_assoc in H. pose proof (H l1 x (l2 ++ c) eq_refl) as X. destruct x; exact X. Qed.
Lemma same_id_spec x i : same_id x i = true <-> x = Some i.
Proof. destruct x; cbn; [rewrite N.eqb_eq|]; split; congruence. Qed.
Lemma same_home_spec x a : same_home x a = true <-> x = Some a.
Proof. destruct x; cbn; [rewrite baddr_eqb_spec|]; split; congruence. Qed.
(** Everything in a client's inbox carries its id. *)
Lemma inbox_id E h l : every (route E) l -> forall d, In d (v_inbox (look (svc E) h l)) -> v_id (look (svc E) h l) = Some (d_cid d).
Proof.
  induction l as [|x l IH] using rev_ind; intros H d; [unfold look; cbn; tauto|].
  pose proof (route_prefix E l [x] H) as Hp. specialize (IH Hp d). rewrite look_snoc. destruct x; cbn [look_step]; auto.
  - destruct (h0 =? h)%nat; auto.
  - destruct o; auto. destruct (in_nat _ _); auto.
  - destruct i; auto. destruct (same_home _ _ && same_id _ _) eqn:X; auto. cbn [v_inbox v_id]. intros Hd.
    apply in_app_iff in Hd as [Hd|[<-|[]]]; auto. apply andb_true_iff in X as [_ X]. now apply same_id_spec.
  - destruct i; auto. destruct (h0 =? h)%nat; auto.
  - destruct (Nat.eqb_spec h0 h) as [->|]; auto. cbn [v_inbox v_id]. intros Hd. apply IH in Hd.
    pose proof (H l (OReg h id) [] eq_refl) as X. cbn in X. congruence.
Qed.
Lemma got_in h l d sv : In (OGot h (InMessage d)) l -> In d (v_got (look sv h l)).
Proof.
  induction l as [|x l IH] using rev_ind; [cbn; tauto|]. unfold look. rewrite fold_left_app. fold (look sv h l). cbn [fold_left].
  intros H. apply in_app_iff in H as [H|[->|[]]].
  - specialize (IH H). destruct x; cbn [look_step]; auto.
    + destruct (h0 =? h)%nat; auto.
    + destruct o; auto. destruct (in_nat _ _); auto.
    + destruct i; auto. destruct (same_home _ _ && same_id _ _); auto.
    + destruct i; auto. destruct (h0 =? h)%nat; auto. cbn. apply in_app_iff; auto.
    + destruct (h0 =? h)%nat; auto.
  - cbn [look_step]. rewrite Nat.eqb_refl. cbn. apply in_app_iff. right. now left.
Qed.
Lemma got_initial E h l : every (route E) l -> initial (v_got (look (svc E) h l)) (v_inbox (look (svc E) h l)).
Proof.
  induction l as [|x l IH] using rev_ind; intros H; [exists []; reflexivity|].
  destruct (IH (route_prefix E l [x] H)) as [r IHr]. rewrite look_snoc. destruct x; cbn [look_step]; try (exists r; exact IHr).
  - destruct (h0 =? h)%nat; exists r; exact IHr.
  - destruct o; try (exists r; exact IHr). destruct (in_nat _ _); exists r; exact IHr.
  - destruct i; try (exists r; exact IHr). destruct (same_home _ _ && same_id _ _); [|exists r; exact IHr]. exists (r ++ [d]). cbn. now rewrite IHr, app_assoc.
  - destruct i; try (exists r; exact IHr). destruct (Nat.eqb_spec h0 h) as [->|]; [|exists r; exact IHr].
    destruct (H l (OGot h (InMessage d)) [] eq_refl) as [r0 X]. exists r0. cbn. rewrite X, <- app_assoc. reflexivity.
  - destruct (h0 =? h)%nat; exists r; exact IHr.
Qed.
(** What a client has received, followed by what is queued for it, is exactly what
    the engine took for it, in order. *)
Theorem C38_received_in_order : forall E h s c, reach E h s -> newids h <= 2 ^ 64 ->
  let v := look (broker_address (e_cfg E)) c (s_log s) in
  initial (v_got v) (v_inbox v) /\
  (ch_client (s_ch s c) = true -> v_inbox v = v_got v ++ messages (ch_down (s_ch s c))).
Proof.
  intros E h s c H Hn v. destruct (w_in E s (reach_views E h s H Hn) c) as (rest & X & Y). split; [exists rest; exact X|].
  intros Hc. specialize (Y Hc). subst rest. exact X.
Qed.
(** What the engine took from a connection, followed by what is queued, is exactly
    what arrived on it, in order. (After the end of the engine events are discarded.) *)
Theorem C38_taken_in_order : forall E h s a, reach E h s ->
  initial (handles a (s_log s)) (arrivals a (s_log s)) /\
  (forall k, get_conn a (s_conns s) = Some k -> s_phase s <> PStop ->
     arrivals a (s_log s) = handles a (s_log s) ++ flat_map (fun x => match snd x with InConnected => [] | i => [i] end) (k_n2e k)).
Proof.
  intros E h s a H. destruct (reach_queues E h s H) as [Q _]. split.
  - destruct (get_conn a (s_conns s)) as [k|] eqn:K.
    + destruct (q_in s Q a k K) as (lost & X & _). eexists. exact X.
    + destruct (q_none s Q a K) as (_ & _ & -> & ->). now exists [].
  - intros k K Hp. destruct (q_in s Q a k K) as (lost & X & Y). rewrite X, (Y Hp), app_nil_r. f_equal.
    unfold unconnected. clear. induction (k_n2e k) as [|[n i] l IH]; cbn; auto. rewrite IH. now destruct i.
Qed.
(** While a client is assigned to a broker, the engine takes for it exactly the
    messages with its id that it takes from that broker's connection. *)
Lemma initial_refl {A} (l : list A) : initial l l.
Proof. exists []. symmetry. apply app_nil_r. Qed.
Lemma stays_snoc sv h a id l1 l x : stays sv h a id l1 (l ++ [x]) -> stays sv h a id l1 l.
Proof. intros H l' A [r ->]. apply H; auto. exists (r ++ [x]). now rewrite app_assoc. Qed.
Lemma messages_for_app id a b : messages_for id (a ++ b) = messages_for id a ++ messages_for id b.
Proof. apply flat_map_app. Qed.
Theorem C38_exactly_the_addressed : forall service h a id l1 l2, stays service h a id l1 (l1 ++ l2) ->
  v_inbox (look service h (l1 ++ l2)) = v_inbox (look service h l1) ++ messages_for id (handles a l2).
Proof.
  intros sv h a id l1 l2. induction l2 as [|x l2 IH] using rev_ind; intros H.
  - rewrite !app_nil_r. reflexivity.
  - rewrite app_assoc in H. pose proof (stays_snoc _ _ _ _ _ _ _ H) as H0. specialize (IH H0).
    destruct (H0 (l1 ++ l2)) as [Hh Hi]; [now exists l2|apply initial_refl|].
    assert (L : look sv h (l1 ++ l2 ++ [x]) = look_step sv h (look sv h (l1 ++ l2)) x) by (rewrite app_assoc; apply fold_left_app).
    rewrite L, handles_app, messages_for_app, app_assoc, <- IH.
    destruct x as [h0 n0 o0| | | | |n0 b0 o0| | | |b0 ser0 i0| | |h0 i0| |h0 id0| | | |]; cbn [look_step];
      try match goal with |- context [handles a [?x]] => match x with OHandle _ _ _ => fail 1 | _ => change (handles a [x]) with (@nil inbound) end end; cbn [messages_for flat_map]; try (rewrite app_nil_r; reflexivity).
    + destruct (h0 =? h)%nat; now rewrite app_nil_r.
    + destruct o0; try now rewrite app_nil_r. destruct (in_nat _ _); now rewrite app_nil_r.
    + assert (X : handles a [OHandle b0 ser0 i0] = if baddr_eqb b0 a then match i0 with InConnected => [] | _ => [i0] end else []).
      { unfold handles. cbn. rewrite app_nil_r. reflexivity. }
      rewrite X. destruct i0; try (destruct (baddr_eqb b0 a); cbn; now rewrite app_nil_r).
      rewrite Hh, Hi. cbn [same_home same_id].
      assert (Y : baddr_eqb a b0 = baddr_eqb b0 a) by (apply eq_iff_eq_true; rewrite !baddr_eqb_spec; split; auto).
      rewrite Y, (N.eqb_sym id). destruct (baddr_eqb b0 a); cbn [andb]; [|cbn; now rewrite app_nil_r].
      cbn. destruct (d_cid d =? id); cbn; now rewrite ?app_nil_r.
    + destruct i0; try now rewrite app_nil_r. destruct (h0 =? h)%nat; now rewrite app_nil_r.
    + destruct (h0 =? h)%nat; now rewrite app_nil_r.
Qed.
(** Together: from any point on at which a client is assigned to a broker, what it
    receives, what is queued for it and what is queued in the connection make up
    the messages with its id arriving on that connection. *)
Theorem C38_stream : forall E h s c a k id l1 l2, reach E h s -> newids h <= 2 ^ 64 -> s_log s = l1 ++ l2 ->
  stays (broker_address (e_cfg E)) c a id l1 (s_log s) -> s_phase s <> PStop -> ch_client (s_ch s c) = true -> get_conn a (s_conns s) = Some k ->
  v_got (look (broker_address (e_cfg E)) c (s_log s)) ++ messages (ch_down (s_ch s c)) ++ messages_for id (map snd (k_n2e k)) =
  v_inbox (look (broker_address (e_cfg E)) c l1) ++ messages_for id (skipn (length (handles a l1)) (arrivals a (s_log s))).
Proof.
  intros E h s c a k id l1 l2 H Hn El Hs Hp Hc K.
  destruct (C38_received_in_order E h s c H Hn) as [_ X]. specialize (X Hc). rewrite app_assoc, <- X, El.
  rewrite (C38_exactly_the_addressed _ c a id l1 l2) by (rewrite <- El; exact Hs). rewrite <- app_assoc. f_equal.
  destruct (reach_queues E h s H) as [Q _]. destruct (q_in s Q a k K) as (lost & Y & Z). rewrite (Z Hp), app_nil_r in Y.
  rewrite El, (handles_app a l1 l2), <- app_assoc in Y. rewrite Y, skipn_app, skipn_all, Nat.sub_diag. cbn [skipn app].
  rewrite messages_for_app. f_equal. clear. induction (map snd (k_n2e k)) as [|i l IH]; [reflexivity|].
  change (i :: l) with ([i] ++ l). rewrite unconnected_app, !messages_for_app, IH. f_equal. now destruct i.
Qed.
(** At its registration a client has received nothing. *)
Theorem C38_starts_empty : forall E h s l1 c id l2, reach E h s -> newids h <= 2 ^ 64 -> s_log s = l1 ++ OReg c id :: l2 ->
  look (broker_address (e_cfg E)) c (l1 ++ [OReg c id]) =
  mk_view (v_mine (look (broker_address (e_cfg E)) c l1)) (Some id) (Some (broker_address (e_cfg E))) [] [].
Proof.
  intros E h s l1 c id l2 H Hn El. pose proof (reach_routes E h s H Hn) as Rt. pose proof (Rt _ _ _ El) as Hid. cbn in Hid.
  rewrite El in Rt. apply (route_prefix E l1) in Rt. fold (svc E). rewrite look_snoc. cbn [look_step]. rewrite Nat.eqb_refl.
  assert (Hin : v_inbox (look (svc E) c l1) = []).
  { destruct (v_inbox (look (svc E) c l1)) as [|d r] eqn:X; auto. pose proof (inbox_id E c l1 Rt d) as Y. rewrite X in Y. specialize (Y (or_introl eq_refl)). congruence. }
  destruct (got_initial E c l1 Rt) as [r X]. rewrite Hin in X. symmetry in X. apply app_eq_nil in X as [X _]. rewrite Hin, X. reflexivity.
Qed.
(** A client receives only messages with its own id, and no other client has that id. *)
Theorem C38_no_one_else : forall E h s c c' d d', reach E h s -> newids h <= 2 ^ 64 ->
  In (OGot c (InMessage d)) (s_log s) ->
  In (c, d_cid d) (registered (s_log s)) /\
  (In (OGot c' (InMessage d')) (s_log s) -> d_cid d' = d_cid d -> c' = c).
Proof.
  intros E h s c c' d d' H Hn Hg. pose proof (reach_routes E h s H Hn) as Rt. pose proof (reach_views E h s H Hn) as V.
  assert (G : forall c d, In (OGot c (InMessage d)) (s_log s) -> exists x, In x (s_clients s) /\ rc_h x = c /\ rc_id x = d_cid d).
  { clear c c' d d' Hg. intros c d Hg. apply (got_in c _ d (svc E)) in Hg.
    destruct (got_initial E c (s_log s) Rt) as [r X]. pose proof (inbox_id E c (s_log s) Rt d) as Y. rewrite X in Y.
    specialize (Y (proj2 (in_app_iff _ _ _) (or_introl Hg))).
    destruct (in_dec Nat.eq_dec c (map rc_h (s_clients s))) as [Z|Z]; [|rewrite (w_no E s V c Z) in Y; discriminate].
    apply in_map_iff in Z as (x & <- & Z). exists x. split; auto. split; auto. rewrite (w_id E s V x Z) in Y. congruence. }
  destruct (G c d Hg) as (x & X1 & X2 & X3). split.
  - rewrite (g_reg s (reach_gate E h s H)). apply in_map_iff. exists x. split; auto. congruence.
  - intros Hg' Hd. destruct (G c' d' Hg') as (y & Y1 & Y2 & Y3). assert (x = y); [|congruence].
    apply (nodup_id s); auto; [|congruence]. destruct (reach_ids E h s H) as [_ D]. exact (NoDup_app_l _ _ (proj1 (D Hn))).
Qed.
Ltac conjs := repeat match goal with |- _ /\ _ => split end.
Print Assumptions C38_received_in_order.
Print Assumptions C38_taken_in_order.
Print Assumptions C38_exactly_the_addressed.
Print Assumptions C38_stream.
Print Assumptions C38_starts_empty.
Print Assumptions C38_no_one_else.
(** Two clients, five messages: each receives its own, in order; the fifth is still
    queued in the connection, the second client's second for the client. *)
Definition x_body (d : delivery) : bytes := match d with DSingle _ _ m => m | DBatch _ _ _ => [] end.
Definition x_msgs : list event := x_reg2 ++ x_connect 0%nat ++
  [EvNet xA (f_msg 0 1 (str "a")); EvNet xA (f_msg 1 2 (str "b")); EvNet xA (f_msg 0 3 (str "c")); EvNet xA (f_msg 1 4 (str "d")); EvNet xA (f_msg 0 5 (str "e"));
   EvConn xA; EvConn xA; EvConn xA; EvConn xA; EvRecv 0%nat; EvRecv 1%nat].
Example C38_meets : match run xE sys_init x_msgs with
  | Some s => map x_body (v_got (look xA 0%nat (s_log s))) = [str "a"] /\ map x_body (messages (ch_down (s_ch s 0%nat))) = [str "c"] /\
      map x_body (v_got (look xA 1%nat (s_log s))) = [str "b"] /\ map x_body (messages (ch_down (s_ch s 1%nat))) = [str "d"] /\
      map x_body (messages_for 0 (arrivals xA (s_log s))) = [str "a"; str "c"; str "e"] /\
      ch_client (s_ch s 0%nat) = true /\ s_phase s = PRun /\ newids x_msgs = 2 /\
      (exists l1 l2, s_log s = l1 ++ l2 /\ length l1 = 12%nat /\ forallb (fun j => let v := look xA 0%nat (firstn (12 + j) (s_log s)) in same_home (v_home v) xA && same_id (v_id v) 0) (seq 0 (S (length l2))) = true)
  | None => False end.
Proof. vm_compute. conjs; try reflexivity. eexists [_;_;_;_;_;_;_;_;_;_;_;_], _. conjs; reflexivity. Qed.

(** * C39 *)
Lemma forwarded_sent a l : NoDup (forwarded l) -> filter (fun n => in_nat n (sent_to a l)) (forwarded l) = sent_to a l.
Proof.
  induction l as [|x l IH]; [reflexivity|]. destruct x; try exact IH.
  change (forwarded (OForward n a0 o :: l)) with (n :: forwarded l).
  assert (Es : sent_to a (OForward n a0 o :: l) = (if baddr_eqb a0 a then [n] else []) ++ sent_to a l) by reflexivity.
  intros Hnd. inversion Hnd as [|? ? N1 N2]; subst. specialize (IH N2).
  assert (Hsub : forall m, In m (sent_to a l) -> In m (forwarded l)).
  { intros m Hm. apply in_flat_map in Hm as (y & Y & Z). destruct y; cbn in Z; try contradiction. destruct (baddr_eqb a1 a); [|contradiction].
    apply in_flat_map. exists (OForward n0 a1 o0). split; auto. }
  rewrite Es. destruct (baddr_eqb a0 a); cbn [app filter].
  - assert (in_nat n (n :: sent_to a l) = true) as -> by (apply is_in_spec; now left). f_equal. transitivity (filter (fun m => in_nat m (sent_to a l)) (forwarded l)); [|exact IH].
    apply filter_ext_in. intros m Hm. apply eq_iff_eq_true. unfold in_nat. rewrite !existsb_exists. split; intros (z & Z & Ez); apply Nat.eqb_eq in Ez; subst z.
    + destruct Z as [->|Z]; [contradiction|]. exists m. split; auto. apply Nat.eqb_refl.
    + exists m. split; [now right|apply Nat.eqb_refl].
  - assert (in_nat n (sent_to a l) = false) as ->; [|exact IH].
    destruct (in_nat n (sent_to a l)) eqn:X; auto. apply is_in_spec in X. apply Hsub in X. contradiction.
Qed.
Definition srcs (l : list (option nat * outbound)) : list nat := flat_map (fun x => match fst x with Some n => [n] | None => [] end) l.
Lemma srcs_app a b : srcs (a ++ b) = srcs a ++ srcs b. Proof. apply flat_map_app. Qed.
Lemma srcs_queued a l : srcs (queued a l) = sent_to a l.
Proof.
  induction l as [|x l IH]; [reflexivity|]. change (x :: l) with ([x] ++ l). rewrite queued_app, srcs_app, IH.
  unfold sent_to. rewrite flat_map_app. f_equal. destruct x; try reflexivity; unfold queued; cbn; destruct (baddr_eqb _ _); reflexivity.
Qed.
Lemma srcs_written a l : srcs (written a l) = wrote a l.
Proof.
  induction l as [|x l IH]; [reflexivity|]. change (x :: l) with ([x] ++ l). rewrite written_app, srcs_app, IH.
  unfold wrote. rewrite flat_map_app. f_equal. destruct x; try reflexivity; unfold written; cbn; destruct src; cbn; destruct (baddr_eqb _ _); reflexivity.
Qed.
Lemma filter_comm {A} (f g : A -> bool) l : filter f (filter g l) = filter g (filter f l).
Proof. induction l as [|x l IH]; cbn; auto. destruct (f x) eqn:F, (g x) eqn:G; cbn; rewrite ?F, ?G, ?IH; auto. Qed.
(** The requests of one client that reach the wire of one connection do so in the
    order of the calls, none skipped among those assigned to that connection. *)
Theorem C39_wire_order : forall E h s c a, reach E h s ->
  initial (wrote_for c a (s_log s)) (filter (fun n => in_nat n (sent_to a (s_log s))) (issued c (s_log s))).
Proof.
  intros E h s c a H. destruct (reach_queues E h s H) as [Q (rest & T & _)]. pose proof (v_r E s (reach_all E h s H)) as R.
  assert (Sw : exists r, sent_to a (s_log s) = wrote a (s_log s) ++ r).
  { rewrite <- srcs_queued, <- srcs_written. destruct (get_conn a (s_conns s)) as [k|] eqn:K.
    - destruct (q_out s Q a k K) as (lost & X & _). rewrite X, srcs_app. eauto.
    - destruct (q_none s Q a K) as (-> & -> & _). exists []. reflexivity. }
  destruct Sw as [r Sw].
  assert (Hnd : NoDup (forwarded (s_log s))) by (pose proof (r_tknd s R) as X; rewrite T in X; now apply NoDup_app_l in X).
  pose proof (q_up s Q c) as U. set (mine := fun n => in_nat n (issued c (s_log s))) in *.
  assert (G : filter (fun n => in_nat n (sent_to a (s_log s))) (filter mine (forwarded (s_log s))) = filter mine (wrote a (s_log s)) ++ filter mine r).
  { rewrite filter_comm, (forwarded_sent a _ Hnd), Sw, filter_app. reflexivity. }
  unfold wrote_for. fold mine. rewrite U, T, !filter_app, G. rewrite <- !app_assoc. eexists. reflexivity.
Qed.
(** If all of them are assigned to that connection: the requests of the client
    written, those queued for the connection, the one the engine has in hand and
    those queued for the engine are exactly the requests it issued, in order. *)
Definition in_hand (s : sys) : list nat := match s_phase s with PAuth _ n _ | PDial _ n _ => [n] | _ => [] end.
Theorem C39_nothing_lost : forall E h s c a k, reach E h s -> s_phase s <> PStop -> get_conn a (s_conns s) = Some k -> k_alive k = true ->
  (forall n b o, In (OForward n b o) (s_log s) -> In n (issued c (s_log s)) -> b = a) ->
  let mine := filter (fun n => in_nat n (issued c (s_log s))) in
  issued c (s_log s) = wrote_for c a (s_log s) ++
    mine (flat_map (fun x => match ci_src x with Some n => [n] | None => [] end) (k_e2n k)) ++ mine (in_hand s) ++ map fst (ch_up (s_ch s c)).
Proof.
  intros E h s c a k H Hp K Ha Hone mine. destruct (reach_queues E h s H) as [Q (rest & T & P)].
  pose proof (q_up s Q c) as U. fold mine in U. rewrite U at 1. rewrite T. unfold mine at 1. rewrite filter_app. fold mine.
  assert (Er : rest = in_hand s) by (unfold in_hand; destruct (s_phase s); auto; congruence). rewrite Er.
  rewrite <- !app_assoc. rewrite !app_assoc. f_equal. f_equal.
  assert (Ef : mine (forwarded (s_log s)) = mine (sent_to a (s_log s))).
  { assert (X : forall l, (forall n b o, In (OForward n b o) l -> In n (issued c (s_log s)) -> b = a) -> mine (forwarded l) = mine (sent_to a l)).
    { clear. intros l. induction l as [|x l IH]; intros Hl; [reflexivity|].
      assert (IH' : mine (forwarded l) = mine (sent_to a l)) by (apply IH; intros; eapply Hl; [right; eauto|auto]).
      destruct x; try exact IH'. change (forwarded (OForward n a0 o :: l)) with ([n] ++ forwarded l).
      assert (Es : sent_to a (OForward n a0 o :: l) = (if baddr_eqb a0 a then [n] else []) ++ sent_to a l) by reflexivity.
      rewrite Es. unfold mine in *. rewrite !filter_app, IH'. f_equal. destruct (in_nat n (issued c (s_log s))) eqn:M.
      - assert (a0 = a) as -> by (apply (Hl n a0 o); [now left|now apply is_in_spec in M]). rewrite baddr_eqb_refl. reflexivity.
      - destruct (baddr_eqb a0 a); cbn; rewrite M; reflexivity. }
    now apply X. }
  rewrite Ef. destruct (q_out s Q a k K) as (lost & X & _ & Z). rewrite (Z Ha) in X. cbn [app] in X.
  rewrite <- srcs_queued, X, srcs_app, srcs_written. unfold mine. rewrite filter_app. unfold wrote_for. f_equal. f_equal.
  unfold outs. clear. induction (k_e2n k) as [|x l IH]; [reflexivity|]. cbn [map flat_map]. rewrite <- IH. reflexivity.
Qed.
(** What is written is the request as issued; for a connect, with its address filled
    in and the plugin's credentials. *)
Theorem C39_commands_unchanged : forall E h s a n o ok, reach E h s -> In (OWrite a (Some n) o ok) (s_log s) ->
  exists q, requested (s_log s) n q /\
    match q with OConnect c => exists d m, o = OConnect (mk_connect d m (Some (fill_address (e_cfg E) (cn_addr c)))) | _ => o = q end.
Proof.
  intros E h s a n o ok H Hw. pose proof (reach_entries E h s H) as En.
  apply in_split in Hw as (l1 & l2 & El). pose proof (En _ _ _ El) as X. cbn in X.
  destruct (c_fw E s (v_c E s (reach_all E h s H)) n a o) as (_ & q & Q1 & Q2); [rewrite El; apply in_app_iff; auto|].
  exists q. split; auto. unfold formed in Q2. destruct q; auto. destruct Q2 as (d & m & Q2 & _). eauto.
Qed.
(** Every request goes to the broker its client is assigned to at that moment, except
    connects that name another broker. *)
Theorem C39_assigned_broker : forall E h s l1 n a o l2 c q, reach E h s -> newids h <= 2 ^ 64 -> s_log s = l1 ++ OForward n a o :: l2 ->
  In (OIssue c n q) l1 ->
  v_home (look (broker_address (e_cfg E)) c l1) = Some a \/ exists r, q = OConnect r /\ a = fill_address (e_cfg E) (cn_addr r) /\ a <> broker_address (e_cfg E).
Proof.
  intros E h s l1 n a o l2 c q H Hn El Hi. pose proof (reach_routes E h s H Hn _ _ _ El c q Hi) as X.
  destruct q as [| |r| | | | | | |]; auto. fold (svc E). destruct (baddr_eqb (fill_address (e_cfg E) (cn_addr r)) (svc E)) eqn:B; auto.
  right. exists r. subst a. split; auto. split; auto. now apply baddr_eqb_neq in B.
Qed.
Print Assumptions C39_wire_order.
Print Assumptions C39_nothing_lost.
Print Assumptions C39_commands_unchanged.
Print Assumptions C39_assigned_broker.
(** A client issues a connect, a subscription, a flow and an ack; two are written,
    one is queued for the connection, one for the engine. *)
Definition x_cmds : list event := x_reg2 ++ x_connect 0%nat ++ x_connect 1%nat ++
  [EvIssue 0%nat (OSubscribe (str "t") (str "s") 0 7 Shared); EvIssue 1%nat (OFlow 1 9); EvClient 0%nat; EvClient 1%nat;
   EvIssue 0%nat (OFlow 0 10); EvIssue 0%nat (x_ack 0); EvClient 0%nat; EvWrite xA 0 true].
Example C39_meets : match run xE sys_init x_cmds with
  | Some s => issued 0%nat (s_log s) = [0; 2; 4; 5]%nat /\ wrote_for 0%nat xA (s_log s) = [0; 2]%nat /\ map fst (ch_up (s_ch s 0%nat)) = [5]%nat /\
      sent_to xA (s_log s) = [0; 1; 2; 3; 4]%nat /\ s_phase s = PRun /\ match get_conn xA (s_conns s) with Some k => k_alive k = true /\ map ci_src (k_e2n k) = [Some 3; Some 4]%nat | None => False end
  | None => False end.
Proof. vm_compute. conjs; reflexivity. Qed.

(** * C40 *)
(** A ping taken from a live connection queues a pong for that connection and does
    nothing else. *)
Theorem C40_ping_pong : forall E h s a k ser q, reach E h s -> s_phase s = PRun -> s_clients s <> [] ->
  get_conn a (s_conns s) = Some k -> k_n2e k = (ser, InPing) :: q -> k_alive k = true ->
  exists s' k', step E s (EvConn a) = Some s' /\ s_log s' = s_log s ++ [OHandle a ser InPing; OPonged a] /\
    get_conn a (s_conns s') = Some k' /\ k_e2n k' = k_e2n k ++ [mk_citem None OPong false] /\ k_n2e k' = q /\
    (forall b, b <> a -> get_conn b (s_conns s') = get_conn b (s_conns s)) /\
    s_ch s' = s_ch s /\ s_res s' = s_res s /\ s_clients s' = s_clients s /\ s_phase s' = PRun.
Proof.
  intros E h s a k ser q H Hp Hc K Hq Ha. destruct (s_clients s) as [|c0 cs] eqn:Ec; [congruence|].
  eexists. eexists. split; [cbn [step]; rewrite Hp, Ec, K, Hq; reflexivity|].
  cbn [handle_inbound]. unfold send_conn. cbn [s_conns say put_conn with_conns]. rewrite get_set_same. cbn [k_alive]. rewrite Ha.
  pj. rewrite <- app_assoc. split; [reflexivity|]. split; [apply get_set_same|]. split; [reflexivity|]. split; [reflexivity|].
  split; [intros b Hb; rewrite !get_set_other by auto; reflexivity|]. auto.
Qed.
(** In the log: the entry after a ping is the pong, or the end of the engine; a pong
    is preceded by a ping of the same connection; and the pongs written are at most
    the pings taken. *)
Theorem C40_ping_then_pong : forall E h s l1 a ser l2, reach E h s -> s_log s = l1 ++ OHandle a ser InPing :: l2 ->
  exists r, l2 = OPonged a :: r \/ l2 = OStop :: r.
Proof. intros E h s l1 a ser l2 H El. destruct (reach_entries E h s H _ _ _ El) as (_ & _ & X & _). auto. Qed.
Theorem C40_pong_after_ping : forall E h s l1 a l2, reach E h s -> s_log s = l1 ++ OPonged a :: l2 ->
  exists l0 ser, l1 = l0 ++ [OHandle a ser InPing].
Proof. intros E h s l1 a l2 H El. exact (reach_entries E h s H _ _ _ El). Qed.
Lemma pings_app a x y : pings a (x ++ y) = (pings a x + pings a y)%nat.
Proof. unfold pings. now rewrite filter_app, app_length. Qed.
Lemma pongs_app a x y : pongs a (x ++ y) = (pongs a x + pongs a y)%nat.
Proof. unfold pongs. now rewrite filter_app, app_length. Qed.
Lemma pongs_pings E a l : every (entry E) l -> forall n l0 r, l = l0 ++ r -> (length l0 <= n)%nat -> (pongs a l0 <= pings a l0)%nat.
Proof.
  intros En. induction n as [|n IH]; intros l0 r El Hl.
  - destruct l0; [cbn; lia|cbn in Hl; lia].
  - destruct l0 as [|x l0] using rev_ind; [cbn; lia|]. clear IHl0. rewrite app_length in Hl. cbn in Hl. rewrite <- app_assoc in El.
    rewrite pongs_app, pings_app. destruct x; try (specialize (IH l0 _ El ltac:(lia)); unfold pongs at 2; cbn; lia).
    destruct (baddr_eqb a0 a) eqn:B.
    + destruct (En _ _ _ El) as (l1 & ser & ->). rewrite <- app_assoc in El. rewrite app_length in Hl. cbn in Hl.
      specialize (IH l1 _ El ltac:(lia)). rewrite pongs_app, pings_app. unfold pongs at 2 3, pings at 2 3. cbn. rewrite B. cbn. lia.
    + specialize (IH l0 _ El ltac:(lia)). unfold pongs at 2. cbn. rewrite B. cbn. lia.
Qed.
Definition own (l : list (option nat * outbound)) : nat := length (filter (fun x => match fst x with None => true | _ => false end) l).
Lemma own_app x y : own (x ++ y) = (own x + own y)%nat.
Proof. unfold own. now rewrite filter_app, app_length. Qed.
Lemma own_queued a l : own (queued a l) = pongs a l.
Proof.
  induction l as [|x l IH]; [reflexivity|]. change (x :: l) with ([x] ++ l). rewrite queued_app, own_app, pongs_app, IH. f_equal.
  destruct x; try reflexivity; unfold queued, pongs; cbn; destruct (baddr_eqb _ _); reflexivity.
Qed.
Lemma own_written a l : (pong_writes a l <= own (written a l))%nat.
Proof.
  induction l as [|x l IH]; [cbn; lia|]. change (x :: l) with ([x] ++ l). rewrite written_app, own_app. unfold pong_writes in *. rewrite filter_app, app_length.
  apply Nat.add_le_mono; [|exact IH]. destruct x; try (cbn; lia). unfold written. cbn. destruct src; cbn; [destruct (baddr_eqb _ _); cbn; lia|].
  destruct o; destruct (baddr_eqb _ _); cbn; lia.
Qed.
Theorem C40_no_more_pongs : forall E h s a, reach E h s -> (pong_writes a (s_log s) <= pongs a (s_log s) <= pings a (s_log s))%nat.
Proof.
  intros E h s a H. split.
  - rewrite <- own_queued. etransitivity; [apply own_written|]. destruct (reach_queues E h s H) as [Q _].
    destruct (get_conn a (s_conns s)) as [k|] eqn:K.
    + destruct (q_out s Q a k K) as (lost & X & _). rewrite X, own_app. lia.
    + destruct (q_none s Q a K) as (-> & -> & _). lia.
  - apply (pongs_pings E a (s_log s) (reach_entries E h s H) (length (s_log s)) _ []); auto. symmetry. apply app_nil_r.
Qed.
(** What a connection writes on the engine's behalf is a pong. *)
Theorem C40_engine_writes_pongs : forall E h s a o ok, reach E h s -> In (OWrite a None o ok) (s_log s) -> o = OPong.
Proof. intros E h s a o ok H Hw. apply in_split in Hw as (l1 & l2 & El). exact (reach_entries E h s H _ _ _ El). Qed.
(** A ping reaches no client. *)
Theorem C40_no_client_sees_it : forall E h s c, reach E h s -> ~ In (OGot c InPing) (s_log s).
Proof. intros E h s c H. destruct (reach_queues E h s H) as [Q _]. exact (q_got s Q c). Qed.
(** Nothing is taken from any connection before a client is registered, or, except
    the answer, while a connect is in flight: pings wait. *)
Theorem C40_pings_wait : forall E h s l1 a ser l2, reach E h s -> s_log s = l1 ++ OHandle a ser InPing :: l2 ->
  registered l1 <> [] /\ forall m, ~ in_flight l1 m KConnect.
Proof.
  intros E h s l1 a ser l2 H El. destruct (reach_gates E h s H _ _ _ El) as [X Y]. split; auto.
  intros m Hm. destruct (flight_waiting l1 m KConnect Hm) as (key & W & K).
  assert (key = kconnect) by (pose proof (K (OConnect (mk_connect None None None)) eq_refl) as Z; cbn in Z; injection Z as <-; reflexivity). subst key.
  apply X in W as [W _]. discriminate.
Qed.
Theorem C40_not_enabled : forall E s a, s_clients s = [] \/ s_phase s <> PRun -> step E s (EvConn a) = None.
Proof. intros E s a [X|X]; cbn [step]; destruct (s_phase s); try reflexivity; [rewrite X; reflexivity|congruence]. Qed.
Print Assumptions C40_ping_pong.
Print Assumptions C40_ping_then_pong.
Print Assumptions C40_pong_after_ping.
Print Assumptions C40_no_more_pongs.
Print Assumptions C40_engine_writes_pongs.
Print Assumptions C40_no_client_sees_it.
Print Assumptions C40_pings_wait.
Print Assumptions C40_not_enabled.
(** Three pings, two taken, one pong written. *)
Example C40_meets : match run xE sys_init (x_reg2 ++ x_connect 0%nat ++ [EvNet xA f_ping; EvNet xA f_ping; EvNet xA f_ping; EvConn xA; EvConn xA; EvWrite xA 0 true]) with
  | Some s => pings xA (s_log s) = 2%nat /\ pongs xA (s_log s) = 2%nat /\ pong_writes xA (s_log s) = 1%nat /\ s_phase s = PRun /\ s_clients s <> [] /\
      match get_conn xA (s_conns s) with Some k => map snd (k_n2e k) = [InPing] /\ k_alive k = true | None => False end
  | None => False end.
Proof. vm_compute. conjs; try reflexivity. discriminate. Qed.
(** Without clients a ping stays in the queue for ever. *)
Example C40_meets_waiting : match run xE sys_init [EvStart true; EvNet xA f_ping] with
  | Some s => s_clients s = [] /\ s_phase s = PRun /\ step xE s (EvConn xA) = None | None => False end.
Proof. vm_compute. conjs; reflexivity. Qed.
