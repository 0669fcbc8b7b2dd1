(** C55-C57: the end of connections, authentication challenges, what a caller learns
    about the cause of a failure. *)
From Verif Require Import Bytes Errors Wire Proto Codec Address Message SpecMessage Client SpecKeys MessageFacts Engine SpecEngine SpecEngine2 EngineFacts EngineInv EngineReq EngineEv EngineConn EngineLog EngineView EngineQueue EngineRoute EngineGate EngineLife EngineHang EngineOrigin EngineEx PropMessage PropEngine PropEngine2 PropEngine3.
Open Scope N_scope.

(** * C55 *)
(** A command a Rust caller can build, with less than 1 GiB of data. *)
Definition sendable_request (o : outbound) : Prop := req_ok o /\ req_weight o < 2 ^ 30 /\ o <> OAck [].

Lemma step_write E s a k x q now b : get_conn a (s_conns s) = Some k -> k_alive k = true -> k_e2n k = x :: q -> encodes E now (ci_out x) = Ok b ->
  step E s (EvWrite a now true) = Some (say (popped s a k x q) [OWrite a (ci_src x) (ci_out x) true]).
Proof.
  intros H A Q X. cbn [step]. rewrite H, A, Q. unfold conn_write. fold (put_item x (k_res k)). fold (encodes E now (ci_out x)). rewrite X.
  destruct (put_item x (k_res k)) as [res dropped] eqn:PI. rewrite wake_all_eq. unfold popped. now rewrite PI, A.
Qed.
Lemma flush E a now : now < 2 ^ 64 -> forall items s k, get_conn a (s_conns s) = Some k -> k_alive k = true -> k_e2n k = items ->
  (forall x, In x items -> req_ok (ci_out x) /\ req_weight (ci_out x) < 2 ^ 30 /\ ci_out x <> OAck []) ->
  exists s' k', run E s (repeat (EvWrite a now true) (length items)) = Some s' /\
    s_log s' = s_log s ++ map (fun x => OWrite a (ci_src x) (ci_out x) true) items /\
    get_conn a (s_conns s') = Some k' /\ k_alive k' = true /\ k_e2n k' = [].
Proof.
  intros Hn. induction items as [|x q IH]; intros s k H A Q F.
  - exists s, k. cbn. rewrite app_nil_r. auto.
  - destruct (F x (or_introl eq_refl)) as (F1 & F2 & F3). destruct (C10_requests_reach_the_wire (e_oc E) now (ci_out x) F1 Hn F2 F3) as (mc & b & T & B & _).
    assert (X : encodes E now (ci_out x) = Ok b) by (unfold encodes; rewrite T; exact B).
    cbn [length repeat run]. rewrite (step_write E s a k x q now b H A Q X).
    destruct (IH (say (popped s a k x q) [OWrite a (ci_src x) (ci_out x) true]) (mk_conn q (k_n2e k) (fst (put_item x (k_res k))) true (k_errored k)))
      as (s' & k' & R & L & G); auto.
    + cbn [s_conns say popped with_phase put_conn with_conns]. apply get_set_same.
    + intros y Hy. apply F. now right.
    + exists s', k'. split; [exact R|]. split; [|exact G]. rewrite L. cbn [s_log say popped with_phase put_conn with_conns]. now rewrite <- app_assoc.
Qed.
Lemma unwritten_items E h s a k : reach E h s -> get_conn a (s_conns s) = Some k -> k_alive k = true ->
  queued a (s_log s) = written a (s_log s) ++ outs (k_e2n k) /\ unwritten a (s_log s) = outs (k_e2n k).
Proof.
  intros H Hk A. destruct (reach_queues E h s H) as [Q _]. destruct (q_out s Q a k Hk) as (lost & Eq & _ & L).
  rewrite (L A) in Eq. split; [exact Eq|]. unfold unwritten. rewrite Eq. cbn [app]. now rewrite skipn_app, skipn_all, Nat.sub_diag.
Qed.
Lemma written_map a items : written a (map (fun x => OWrite a (ci_src x) (ci_out x) true) items) = outs items.
Proof. induction items as [|x q IH]; [reflexivity|]. cbn [map]. unfold written in *. cbn [flat_map]. rewrite baddr_eqb_refl, IH. reflexivity. Qed.
Lemma queued_map a items : queued a (map (fun x => OWrite a (ci_src x) (ci_out x) true) items) = [].
Proof. induction items as [|x q IH]; [reflexivity|]. exact IH. Qed.
Lemma flushed E h s a k now : reach E h s -> get_conn a (s_conns s) = Some k -> k_alive k = true ->
  now < 2 ^ 64 -> (forall n o, In (n, o) (unwritten a (s_log s)) -> sendable_request o) ->
  exists s' k', run E s (repeat (EvWrite a now true) (length (unwritten a (s_log s)))) = Some s' /\
    s_log s' = s_log s ++ map (fun x => OWrite a (fst x) (snd x) true) (unwritten a (s_log s)) /\
    written a (s_log s') = queued a (s_log s) /\ queued a (s_log s') = queued a (s_log s) /\
    get_conn a (s_conns s') = Some k' /\ k_alive k' = true /\ k_e2n k' = [].
Proof.
  intros H Hk A Hn F. destruct (unwritten_items E h s a k H Hk A) as [Eq U]. rewrite U in *. unfold outs at 1. rewrite map_length.
  destruct (flush E a now Hn (k_e2n k) s k Hk A eq_refl) as (s' & k' & R & L & G).
  - intros x Hx. apply (F (ci_src x)). unfold outs. apply in_map_iff. eauto.
  - exists s', k'. split; [exact R|]. split; [|split; [|split; [|exact G]]]; rewrite L.
    + unfold outs. rewrite map_map. reflexivity.
    + now rewrite written_app, written_map.
    + now rewrite queued_app, queued_map, app_nil_r.
Qed.
(** Whatever the engine and its clients have done, a connection that has not ended
    can write all that is queued for it, in order, with nobody's help; also after
    the end of the engine. *)
Theorem C55_queue_can_be_written_out : forall E h s a k now, reach E h s -> get_conn a (s_conns s) = Some k -> k_alive k = true ->
  now < 2 ^ 64 -> (forall n o, In (n, o) (unwritten a (s_log s)) -> sendable_request o) ->
  exists s' k', run E s (repeat (EvWrite a now true) (length (unwritten a (s_log s)))) = Some s' /\
    s_log s' = s_log s ++ map (fun x => OWrite a (fst x) (snd x) true) (unwritten a (s_log s)) /\
    written a (s_log s') = queued a (s_log s') /\ get_conn a (s_conns s') = Some k' /\ k_alive k' = true.
Proof.
  intros E h s a k now H Hk A Hn F. destruct (flushed E h s a k now H Hk A Hn F) as (s' & k' & R & L & W & Q & G & A' & _).
  exists s', k'. rewrite W, Q. auto 6.
Qed.
Print Assumptions C55_queue_can_be_written_out.
(** After the end of the engine it then ends. *)
Theorem C55_then_ends_after_the_engine : forall E h s a k now, reach E h s -> get_conn a (s_conns s) = Some k -> k_alive k = true -> In OStop (s_log s) ->
  now < 2 ^ 64 -> (forall n o, In (n, o) (unwritten a (s_log s)) -> sendable_request o) ->
  exists s' k', run E s (repeat (EvWrite a now true) (length (unwritten a (s_log s)) + 1)) = Some s' /\
    written a (s_log s') = queued a (s_log s') /\ get_conn a (s_conns s') = Some k' /\ k_alive k' = false.
Proof.
  intros E h s a k now H Hk A St Hn F. destruct (flushed E h s a k now H Hk A Hn F) as (s1 & k1 & R & L & W & Q & G & A' & Em).
  pose proof (reach_all E h s H) as V. apply (i_stop s (v_s E s V)) in St. pose proof (run_stop E s _ s1 V R St) as P1.
  rewrite repeat_app, run_app, R. cbn [repeat run step]. rewrite G, A', Em, P1.
  eexists. exists (mk_conn [] (k_n2e k1) [] false (k_errored k1)). split; [reflexivity|]. rewrite conn_end_dead. unfold dead. cbn [s_log s_conns with_phase put_conn with_conns].
  split; [now rewrite W, Q|]. rewrite get_set_same, Em. auto.
Qed.
Print Assumptions C55_then_ends_after_the_engine.
(** What a step does to a live connection. *)
Lemma fwd_alive s id n o s' a k : fwd s id n o s' -> get_conn a (s_conns s) = Some k -> k_alive k = true -> exists k', get_conn a (s_conns s') = Some k' /\ k_alive k' = true.
Proof.
  intros F H A. destruct F; [|rewrite stop_conns; eauto]. pj. rewrite get_set. destruct (baddr_eqb (rc_addr c) a); eauto.
Qed.
Lemma put_alive l b kb a k : get_conn a l = Some k -> k_alive k = true -> k_alive kb = true -> exists k', get_conn a (set_conn b kb l) = Some k' /\ k_alive k' = true.
Proof. intros H A B. rewrite get_set. destruct (baddr_eqb b a); eauto. Qed.
Lemma put_other l b kb a k : get_conn a l = Some k -> k_alive k = true -> (b = a -> False) -> exists k', get_conn a (set_conn b kb l) = Some k' /\ k_alive k' = true.
Proof. intros H A B. rewrite get_set_other by auto. eauto. Qed.
Definition own (a : baddr) (e : event) : bool := match e with EvWrite b _ _ | EvNet b _ => baddr_eqb b a | _ => false end.
Lemma trans_alive E s e s' a k : wf E s -> trans E s e s' -> get_conn a (s_conns s) = Some k -> k_alive k = true -> own a e = false ->
  exists k', get_conn a (s_conns s') = Some k' /\ k_alive k' = true.
Proof.
  intros W T K A O. destruct T; rewrite ?stop_conns; try (exists k; split; [exact K|exact A]);
    try (cbn [own] in O; apply baddr_eqb_neq in O; pj; first [apply put_other with k; auto; fail|exists k; split; [exact K|exact A]]).
  - pj. apply put_alive with k; auto.
  - apply (fwd_alive _ _ _ _ _ a k H5); auto.
  - apply (fwd_alive _ _ _ _ _ a k H6); auto. now rewrite moved_conns.
  - apply (fwd_alive _ _ _ _ _ a k H1); auto. now rewrite moved_conns.
  - destruct (put_alive (s_conns s) (caddr E c) conn_init a k K A eq_refl) as (k1 & K1 & A1).
    apply (fwd_alive _ _ _ _ _ a k1 H0); auto. now rewrite moved_conns.
  - rewrite (sent_conn _ _ _ _ _ a H0). eauto.
  - pj. apply put_alive with k; auto.
  - pj. rewrite get_set. destruct (baddr_eqb a0 a) eqn:X; [|eauto]. apply baddr_eqb_spec in X. subst. congruence.
  - rewrite (sent_conn _ _ _ _ _ a H4). pj. rewrite get_set. destruct (baddr_eqb a0 a) eqn:X; [|eauto]. apply baddr_eqb_spec in X. subst. eexists. split; [reflexivity|]. cbn. congruence.
  - pj. rewrite set_twice. apply put_other with k; auto. cbn [own] in O. now apply baddr_eqb_neq in O.
Qed.
Lemma trans_wrote E s e s' a k : trans E s e s' -> get_conn a (s_conns s) = Some k -> k_alive k = false ->
  exists c, s_log s' = s_log s ++ c /\ written a c = [] /\ arrivals a c = [].
Proof.
  assert (ST : forall t, written a (stop_log t) = [] /\ arrivals a (stop_log t) = [])
    by (intros t; split; [apply idle_written|apply idle_arrivals]; apply idle_stop).
  assert (CA : forall ns, written a (cancel_all ns) = [] /\ arrivals a (cancel_all ns) = [])
    by (intros t; split; [apply idle_written|apply idle_arrivals]; apply idle_cancel).
  assert (EN : forall hs f, written a (ends_log hs f) = [] /\ arrivals a (ends_log hs f) = [])
    by (intros t f; split; [apply idle_written|apply idle_arrivals]; apply idle_ends).
  assert (ME : forall s0 s1 c, s_log s0 = s_log s ++ c -> written a c = [] -> arrivals a c = [] -> (exists d, s_log s1 = s_log s0 ++ d /\ written a d = [] /\ arrivals a d = []) ->
     exists c, s_log s1 = s_log s ++ c /\ written a c = [] /\ arrivals a c = []).
  { intros s0 s1 c E1 E2 E3 (d & D1 & D2 & D3). exists (c ++ d). rewrite D1, E1, <- app_assoc, written_app, arrivals_app, E2, E3. auto. }
  assert (FW : forall s0 id n o s1, fwd s0 id n o s1 -> exists d, s_log s1 = s_log s0 ++ d /\ written a d = [] /\ arrivals a d = []).
  { intros s0 id n o s1 F. destruct F; eexists; (split; [first [pj; reflexivity|apply stop_log_eq]|auto]). }
  assert (SE : forall s0 b ser i s1, sent s0 b ser i s1 -> exists d, s_log s1 = s_log s0 ++ d /\ written a d = [] /\ arrivals a d = []).
  { intros s0 b ser i s1 F. destruct F; eexists; (split; [pj; first [reflexivity|symmetry; apply app_nil_r]|auto]). }
  assert (SL : forall x c, written a c = [] -> arrivals a c = [] -> match x with OWrite _ _ _ _ | OArrive _ _ _ => False | _ => True end -> written a (x :: c) = [] /\ arrivals a (x :: c) = []).
  { intros x c E1 E2 X. destruct x; try destruct X; auto. }
  assert (AP : forall c d, written a c = [] /\ arrivals a c = [] -> written a d = [] /\ arrivals a d = [] -> written a (c ++ d) = [] /\ arrivals a (c ++ d) = []).
  { intros c d [E1 E2] [E3 E4]. rewrite written_app, arrivals_app, E1, E2, E3, E4. auto. }
  assert (SP : forall s0 c, s_log s0 = s_log s ++ c -> written a c = [] -> arrivals a c = [] -> exists d, s_log (stop s0) = s_log s ++ d /\ written a d = [] /\ arrivals a d = []).
  { intros s0 c E1 E2 E3. exists (c ++ stop_log s0). rewrite stop_log_eq, E1, <- app_assoc. split; auto. }
  intros T K A. destruct T;
    try (eexists; split; [pj; first [reflexivity|symmetry; apply app_nil_r]|auto]; fail);
    try (eapply SP; [first [pj; reflexivity|symmetry; apply app_nil_r]|reflexivity|reflexivity]; fail);
    try (match goal with F : fwd _ _ _ _ _ |- _ => eapply ME; [| | |exact (FW _ _ _ _ _ F)] end; rewrite ?moved_log; [first [pj; rewrite <- app_assoc; reflexivity|pj; reflexivity]| |]; apply (AP [_]); auto; fail);
    try (match goal with F : fwd _ _ _ _ _ |- _ => eapply ME; [| | |exact (FW _ _ _ _ _ F)] end; rewrite ?moved_log; [pj; reflexivity| |]; reflexivity; fail);
    try (match goal with F : sent _ _ _ _ _ |- _ => eapply ME; [| | |exact (SE _ _ _ _ _ F)] end; [pj; reflexivity| |]; reflexivity; fail);
    try (match goal with K0 : get_conn ?b _ = Some _ |- _ => assert (b <> a) by congruence end; eexists; split; [pj; reflexivity|];
         unfold written, arrivals; cbn [flat_map app]; rewrite ?(proj2 (baddr_eqb_neq _ _) H4), ?(proj2 (baddr_eqb_neq _ _) H3), ?(proj2 (baddr_eqb_neq _ _) H5), ?(proj2 (baddr_eqb_neq _ _) H6); auto; fail).
  - eexists; split; [pj; reflexivity|]. destruct (ch_engine (s_ch s h)); auto.
  - eexists. split; [pj; rewrite <- app_assoc; reflexivity|]. apply (AP [_]); auto.
  - eexists. split; [pj; rewrite <- app_assoc; reflexivity|]. apply (AP [_]); auto.
Qed.
(** A connection ends only because its stream ended, because of a frame or command
    that panics, or after the end of the engine. *)
Theorem C55_ends_for_a_reason : forall E h s e s' a k k', reach E h s -> step E s e = Some s' ->
  get_conn a (s_conns s) = Some k -> k_alive k = true -> get_conn a (s_conns s') = Some k' -> k_alive k' = false ->
  e = EvNet a IEnd \/ e = EvNet a IPanic \/
  (exists mc, e = EvNet a (IFrame mc) /\ (to_inbound mc = Panic \/ (In OStop (s_log s) /\ exists i, to_inbound mc = Ok i))) \/
  (exists now io, e = EvWrite a now io /\
     ((exists n o rest, unwritten a (s_log s) = (n, o) :: rest /\ obind (to_cmd now o) (encode (e_oc E)) = Panic) \/
      (In OStop (s_log s) /\ unwritten a (s_log s) = []))).
Proof.
  intros E h s e s' a k k' H S K A K' A'. pose proof (reach_all E h s H) as V. destruct (own a e) eqn:O.
  2:{ destruct (trans_alive E s e s' a k (v_wf E s V) (step_trans E s e s' (v_wf E s V) S) K A O) as (k1 & K1 & A1). congruence. }
  destruct (unwritten_items E h s a k H K A) as [_ U].
  destruct e; try discriminate O; apply baddr_eqb_spec in O; subst; cbn [step] in S; rewrite K, A in S.
  - right. right. right. exists now, io. split; auto. rewrite U. destruct (k_e2n k) as [|x q] eqn:Q.
    + right. destruct (s_phase s) eqn:P; try discriminate. split; [now apply (i_stop s (v_s E s V))|reflexivity].
    + left. exists (ci_src x), (ci_out x), (outs q). split; [reflexivity|]. injection S as <-. unfold conn_write in K'.
      fold (put_item x (k_res k)) in K'. destruct (put_item x (k_res k)) as [res dropped]. rewrite wake_all_eq in K'.
      destruct (obind (to_cmd now (ci_out x)) (encode (e_oc E))); [| |reflexivity];
        cbn [s_conns say with_phase put_conn with_conns] in K'; rewrite get_set_same in K'; injection K' as <-; cbn in A'; congruence.
  - destruct x as [mc|er| |]; auto.
    + right. right. left. exists mc. split; auto. destruct (k_errored k) eqn:Er; [discriminate|]. injection S as <-. cbn [conn_net] in K'.
      destruct (to_inbound mc) as [i|er|] eqn:I; auto; [|congruence]. right. split; eauto. apply (i_stop s (v_s E s V)).
      destruct (r_resolve (ikey i) (k_res k)) as [[m res]|].
      * rewrite wake_eq in K'. cbn [s_conns say with_phase put_conn with_conns] in K'. rewrite get_set_same in K'. injection K' as <-. cbn in A'. congruence.
      * destruct (s_phase s); auto; cbn [s_conns say with_phase put_conn with_conns] in K'; rewrite get_set_same in K'; injection K' as <-; cbn in A'; congruence.
    + destruct (k_errored k) eqn:Er; [discriminate|]. injection S as <-. cbn [conn_net s_conns put_conn with_conns] in K'. rewrite get_set_same in K'. injection K' as <-. cbn in A'. congruence.
Qed.
Print Assumptions C55_ends_for_a_reason.
(** An ended connection reads and writes nothing any more. *)
Theorem C55_end_is_final : forall E h s a k h2 s2, reach E h s -> get_conn a (s_conns s) = Some k -> k_alive k = false -> run E s h2 = Some s2 ->
  written a (s_log s2) = written a (s_log s) /\ arrivals a (s_log s2) = arrivals a (s_log s) /\ queued a (s_log s2) = queued a (s_log s).
Proof.
  intros E h s a k h2 s2 H K A R. pose proof (reach_all E h s H) as V.
  assert (X : written a (s_log s2) = written a (s_log s) /\ arrivals a (s_log s2) = arrivals a (s_log s)).
  { clear H. revert s k V K A R. induction h2 as [|e h2 IH]; intros s k V K A R; cbn [run] in R; [injection R as <-; auto|].
    destruct (step E s e) as [s1|] eqn:S; [|discriminate]. pose proof (step_trans _ _ _ _ (v_wf E s V) S) as T.
    destruct (trans_lost E s e s1 a k (v_wf E s V) T K A) as (_ & k1 & _ & K1 & A1 & _).
    destruct (trans_wrote E s e s1 a k T K A) as (c & El & W & Ar).
    destruct (IH s1 k1 (inv_trans E s e s1 V T) K1 A1 R) as [E1 E2]. rewrite E1, E2, El, written_app, arrivals_app, W, Ar, !app_nil_r. auto. }
  destruct X as [X Y]. split; [exact X|]. split; [exact Y|]. exact (C42_lost_connection_accepts_nothing E h s a k h2 s2 H K A R).
Qed.
Print Assumptions C55_end_is_final.
(** After the end of the engine the first event the broker sends that is not the
    answer to a connect ends the connection: what is still queued is never written. *)
Theorem C55_an_event_loses_the_queue : forall E h s a k mc i, reach E h s -> In OStop (s_log s) -> get_conn a (s_conns s) = Some k -> k_alive k = true ->
  k_errored k = false -> to_inbound mc = Ok i -> i <> InConnected ->
  exists s', step E s (EvNet a (IFrame mc)) = Some s' /\
    forall h2 s2, run E s' h2 = Some s2 -> written a (s_log s2) = written a (s_log s).
Proof.
  intros E h s a k mc i H St K A Er I Hi. pose proof (reach_all E h s H) as V. apply (i_stop s (v_s E s V)) in St.
  assert (R : r_resolve (ikey i) (k_res k) = None).
  { unfold r_resolve. destruct (ikey i) as [key|] eqn:Ik; auto. destruct (r_find key (k_res k)) as [m|] eqn:F; auto.
    apply r_find_in in F. destruct (c_res E s (v_c E s V) a k key m K F) as [-> _]. apply ikey_kconnect in Ik. contradiction. }
  assert (SS : step E s (EvNet a (IFrame mc)) = Some (dead (say (with_counts s (s_nreq s) (S (s_narr s))) [OArrive a (s_narr s) i]) a k)).
  { cbn [step]. rewrite K, A, Er. cbn [negb orb andb]. unfold conn_net. rewrite I, R, St. now rewrite conn_end_dead. }
  eexists. split; [exact SS|]. intros h2 s2 R2.
  assert (H' : reach E (h ++ [EvNet a (IFrame mc)]) (dead (say (with_counts s (s_nreq s) (S (s_narr s))) [OArrive a (s_narr s) i]) a k)).
  { unfold reach in *. rewrite run_app, H. cbn [run]. now rewrite SS. }
  destruct (C55_end_is_final E _ _ a (mk_conn (k_e2n k) (k_n2e k) [] false (k_errored k)) h2 s2 H') as [-> _]; auto.
  - unfold dead. cbn [s_conns with_phase put_conn with_conns say]. apply get_set_same.
  - unfold dead. cbn [s_log with_phase put_conn with_conns say with_counts]. now rewrite written_app, app_nil_r.
Qed.
Print Assumptions C55_an_event_loses_the_queue.
(** Both happen: two acks are queued when the first client is dropped and the engine
    ends; they can be written, or be lost to an event. *)
Definition x_queued : list event := x_reg2 ++ x_connect 0%nat ++
  [EvIssue 1%nat (x_ack 1); EvIssue 1%nat (x_ack 1); EvClient 1%nat; EvClient 1%nat; EvDropClient 0%nat; EvClient 0%nat].
Example C55_cases : exists s k, reach xE x_queued s /\ In OStop (s_log s) /\ get_conn xA (s_conns s) = Some k /\ k_alive k = true /\ k_errored k = false /\
  unwritten xA (s_log s) = [(Some 1%nat, x_ack 1); (Some 2%nat, x_ack 1)] /\ sendable_request (x_ack 1) /\ exists i mc, f_ack 1 = IFrame mc /\ to_inbound mc = Ok i /\ i <> InConnected.
Proof.
  unfold reach. destruct (run xE sys_init x_queued) as [s|] eqn:R; [|vm_compute in R; discriminate]. vm_compute in R. injection R as <-.
  eexists. eexists. split; [reflexivity|]. split; [vm_compute; repeat first [left; reflexivity|right]|]. split; [vm_compute; reflexivity|].
  split; [reflexivity|]. split; [reflexivity|]. split; [vm_compute; reflexivity|].
  split.
  - split; [|split; [vm_compute; reflexivity|discriminate]]. constructor; [|constructor]. repeat split; vm_compute; try reflexivity; auto.
  - do 2 eexists. split; [reflexivity|]. split; [vm_compute; reflexivity|discriminate].
Qed.

(** * C56 *)
(** No client of the crate answers an authentication challenge. *)
Theorem C56_never_answered : forall E h s a n method data ok, reach E h s -> ~ In (OWrite a n (OAuth method data) ok) (s_log s).
Proof.
  intros E h s a n m d ok H X. destruct n as [n|].
  - destruct (C39_commands_unchanged E h s a n _ ok H X) as (q & (c & Hq) & Q). pose proof (reach_all E h s H) as V.
    destruct (c_api E s (v_c E s V) c n q Hq) as [_ Ap]. destruct q; try (subst; discriminate); destruct Q as (? & ? & Q); discriminate.
  - pose proof (C40_engine_writes_pongs E h s a _ ok H X). discriminate.
Qed.
Print Assumptions C56_never_answered.
(** The engine passes it to the clients assigned to that broker and does nothing else. *)
Theorem C56_only_passed_on : forall E h s a k ser q, reach E h s -> s_phase s = PRun -> s_clients s <> [] ->
  get_conn a (s_conns s) = Some k -> k_n2e k = (ser, InAuthChallenge) :: q ->
  exists s', step E s (EvConn a) = Some s' /\ s_log s' = s_log s ++ [OHandle a ser InAuthChallenge] /\ s_phase s' = PRun /\
    (forall b kb, get_conn b (s_conns s) = Some kb -> exists kb', get_conn b (s_conns s') = Some kb' /\ k_e2n kb' = k_e2n kb /\ k_alive kb' = k_alive kb) /\
    s_clients s' = s_clients s /\ s_res s' = s_res s /\
    forall c, ch_up (s_ch s' c) = ch_up (s_ch s c) /\
      ch_down (s_ch s' c) = ch_down (s_ch s c) ++
        (if existsb (fun x => (rc_h x =? c)%nat && baddr_eqb (rc_addr x) a) (s_clients s) && ch_client (s_ch s c) then [InAuthChallenge] else []).
Proof.
  intros E h s a k ser q H P C K Q. pose proof (reach_all E h s H) as V.
  assert (R : r_find (str "AUTH_CHALLENGE") (s_res s) = None).
  { destruct (r_find (str "AUTH_CHALLENGE") (s_res s)) as [m|] eqn:F; auto. exfalso. apply r_find_in in F.
    destruct (r_res s (v_r E s V) _ _ F) as (o & (c & Ho) & As & Ok & _). destruct (c_api E s (v_c E s V) c m o Ho) as [_ Ap].
    destruct o; try discriminate As; try discriminate Ap; cbn [okey] in Ok; injection Ok as Ok; discriminate Ok. }
  eexists. cbn [step]. rewrite P, K, Q. destruct (s_clients s) as [|c0 cs] eqn:Cs; [congruence|]. split; [reflexivity|].
  cbn [handle_inbound]. unfold manager_send. cbn [fix_lookup ikey r_resolve]. change (s_res (say ?x ?y)) with (s_res x). cbn [s_res put_conn with_conns]. rewrite R, push_down_eq.
  pj. rewrite Cs.
  split; [reflexivity|]. split; [exact P|]. split; [|split; [reflexivity|split; [reflexivity|]]].
  - intros b kb Kb. rewrite get_set. destruct (baddr_eqb a b) eqn:X; [|eauto]. apply baddr_eqb_spec in X. subst b. eexists. split; [reflexivity|]. cbn. rewrite K in Kb. injection Kb as ->. auto.
  - intros c. split; [apply push_ch_meta|]. rewrite push_ch_down.
    + f_equal. match goal with |- context [is_in ?x ?y] => replace (is_in x y) with (existsb (fun x => (rc_h x =? c)%nat && baddr_eqb (rc_addr x) a) (c0 :: cs)); [reflexivity|] end.
      generalize (c0 :: cs). intros l. induction l as [|x l IH]; [reflexivity|]. cbn [existsb filter].
      change (addressed a InAuthChallenge x) with (baddr_eqb (rc_addr x) a && true). rewrite IH.
      destruct (baddr_eqb (rc_addr x) a); cbn; [|now rewrite andb_false_r]. rewrite andb_true_r. now rewrite Nat.eqb_sym.
    + pose proof (h_nodup s (v_h E s V)) as N. apply NoDup_app_l in N. rewrite Cs in N. generalize dependent (c0 :: cs). clear. intros l _ _ N.
      induction l as [|x l IH]; [constructor|]. inversion N as [|? ? N1 N2]; subst. cbn [filter]. destruct (addressed a InAuthChallenge x); auto.
      cbn [map]. constructor; auto. intros Y. apply N1. apply in_map_iff in Y as (y & Ey & Y). apply filter_In in Y as [Y _]. apply in_map_iff. eauto.
Qed.
Print Assumptions C56_only_passed_on.
(** It happens: a challenge reaches the client, and nothing is written for it. *)
Definition f_challenge : item := fr 36 [].
Example C56_cases : exists s k ser q, reach xE (x_reg2 ++ x_connect 0%nat ++ [EvNet xA f_challenge]) s /\ s_phase s = PRun /\ s_clients s <> [] /\
  get_conn xA (s_conns s) = Some k /\ k_n2e k = (ser, InAuthChallenge) :: q /\
  exists s', run xE s [EvConn xA; EvRecv 0%nat; EvRecv 1%nat] = Some s' /\ In (OGot 0%nat InAuthChallenge) (s_log s') /\ In (OGot 1%nat InAuthChallenge) (s_log s') /\
    unwritten xA (s_log s') = [].
Proof.
  unfold reach. match goal with |- context [run xE sys_init ?h] => destruct (run xE sys_init h) as [s|] eqn:R; [|vm_compute in R; discriminate] end. vm_compute in R. injection R as <-.
  do 4 eexists. split; [reflexivity|]. split; [reflexivity|]. split; [discriminate|]. split; [vm_compute; reflexivity|]. split; [reflexivity|].
  match goal with |- exists s', ?r = Some s' /\ _ => destruct r as [s'|] eqn:R; [|vm_compute in R; discriminate] end. vm_compute in R. injection R as <-.
  eexists. split; [reflexivity|]. split; [vm_compute; repeat first [left; reflexivity|right]|]. split; [vm_compute; repeat first [left; reflexivity|right]|]. vm_compute. reflexivity.
Qed.

(** * C57 *)
(** The end of the engine right after [x]: every request in flight completes with
    ChannelTerminated, and with nothing else. *)
Lemma stopped_after E h s l1 x l2 : reach E h s -> s_log s = l1 ++ x :: OStop :: l2 -> neutral x = true ->
  forall n k, in_flight l1 n k -> In (OCancel n) l2 /\ forall ser i, ~ In (OAnswer n ser i) (s_log s).
Proof.
  intros H El Hx n k F.
  assert (G : in_flight (l1 ++ [x]) n k).
  { destruct F as (o & F1 & F2 & F3 & F4 & F5). exists o. split; [now apply requested_app|]. split; auto. split; auto.
    rewrite takes_app, settled_app, (neutral_settled [x]) by (cbn; now rewrite Hx). rewrite app_nil_r. split; auto. apply in_app_iff; auto. }
  assert (E' : s_log s = (l1 ++ [x]) ++ OStop :: l2) by (rewrite El, <- app_assoc; reflexivity).
  assert (C : In (OCancel n) l2) by (apply (C41_in_flight_cancelled E h s (l1 ++ [x]) l2 n k H); auto).
  split; auto. intros ser i A. rewrite El in A. apply in_app_iff in A. destruct A as [A|A].
  - destruct F as (o & _ & _ & _ & _ & F5). apply F5. unfold settled. apply in_flat_map. exists (OAnswer n ser i). split; auto. now left.
  - destruct A as [->|A]; [discriminate Hx|]. destruct A as [A|A]; [discriminate|]. exact (C42_end_is_final E h s _ _ _ H E' A).
Qed.
Lemma waiting_flight l n q : waiting_on l n kconnect -> requested l n (OConnect q) -> (forall h n o h' o', In (OIssue h n o) l -> In (OIssue h' n o') l -> h = h' /\ o = o') -> in_flight l n KConnect.
Proof.
  intros (o & W1 & W2 & W3 & W4 & W5) R U. exists (OConnect q). split; [exact R|]. split; [reflexivity|]. split; [reflexivity|]. auto.
Qed.
Lemma uniq_prefix E h s l1 l2 : reach E h s -> s_log s = l1 ++ l2 -> forall c n o c' o', In (OIssue c n o) l1 -> In (OIssue c' n o') l1 -> c = c' /\ o = o'.
Proof.
  intros H El c n o c' o' A B. pose proof (reach_all E h s H) as V. apply (r_uniq s (v_r E s V) c n o c' o'); rewrite El; apply in_app_iff; auto.
Qed.
(** A dial is the first one, to the configured address, or made for a connect in
    flight, to the address it names; a failed one makes every request in flight,
    that connect included, complete with ChannelTerminated: the error reaches no
    caller. *)
Theorem C57_failed_dial : forall E h s l1 a l2, reach E h s -> s_log s = l1 ++ ODial a false :: l2 ->
  (((forall b ok, ~ In (ODial b ok) l1) /\ a = broker_address (e_cfg E)) \/
   exists n q, in_flight l1 n KConnect /\ requested l1 n (OConnect q) /\ a = fill_address (e_cfg E) (cn_addr q)) /\
  forall n k, in_flight l1 n k -> In (OCancel n) l2 /\ forall ser i, ~ In (OAnswer n ser i) (s_log s).
Proof.
  intros E h s l1 a l2 H El. split.
  - destruct (reach_origins E h s H _ _ _ El) as [X|(n & q & W & R & X)]; [left; exact X|right]. exists n, q. split; auto.
    apply (waiting_flight l1 n q W R). exact (uniq_prefix E h s _ _ H El).
  - intros n k F. destruct (C42_failed_dial_ends_engine E h s l1 a l2 H El) as [r ->].
    destruct (stopped_after E h s l1 _ r H El eq_refl n k F) as [X Y]. split; [now right|exact Y].
Qed.
Print Assumptions C57_failed_dial.
(** Likewise the authentication plugin: it is called for a connect in flight, only if
    one is configured, and its error reaches no caller. *)
Theorem C57_failed_authentication : forall E h s l1 m r l2, reach E h s -> s_log s = l1 ++ OAuthed m r :: l2 ->
  e_auth E <> None /\ in_flight l1 m KConnect /\
  ((forall d, r <> Ok d) -> forall n k, in_flight l1 n k -> In (OCancel n) l2 /\ forall ser i, ~ In (OAnswer n ser i) (s_log s)).
Proof.
  intros E h s l1 m r l2 H El. destruct (reach_origins E h s H _ _ _ El) as (X & W & q & R). split; auto. split.
  - apply (waiting_flight l1 m q W R). exact (uniq_prefix E h s _ _ H El).
  - intros Nr n k F. destruct (C42_failed_auth_ends_engine E h s l1 m r l2 H El) as [[d ->]|[r' ->]]; [exfalso; eapply Nr; reflexivity|].
    destruct (stopped_after E h s l1 _ r' H El eq_refl n k F) as [X' Y]. split; [now right|exact Y].
Qed.
Print Assumptions C57_failed_authentication.
(** Client 1's ack is in flight when the dial for client 0's connect to another broker fails. *)
Definition x_bad_dial : list event := x_reg2 ++ x_connect 0%nat ++
  [EvIssue 1%nat (x_ack 1); EvClient 1%nat; EvIssue 0%nat (OConnect (mk_connect None None (Some (Proxy [] (str "pulsar://other:1"))))); EvClient 0%nat; EvDial false].
Example C57_case : exists s l1 a l2, reach xE x_bad_dial s /\ s_log s = l1 ++ ODial a false :: l2 /\ l2 = [OStop; OCancel 2%nat; OCancel 1%nat] /\
  in_flight l1 1%nat KAck /\ in_flight l1 2%nat KConnect.
Proof.
  unfold reach. destruct (run xE sys_init x_bad_dial) as [s|] eqn:R; [|vm_compute in R; discriminate]. vm_compute in R. injection R as <-.
  eexists. exists (firstn 17 (match xrun x_bad_dial with Some l => l | None => [] end)). do 2 eexists. split; [reflexivity|]. cbn [s_log].
  split; [vm_compute; reflexivity|]. split; [reflexivity|].
  split; (eexists; split; [eexists; vm_compute; repeat first [left; reflexivity|right]|]; split; [reflexivity|]; split; [reflexivity|]; split;
    [vm_compute; tauto|vm_compute; intros X; repeat (destruct X as [X|X]; [discriminate X|]); exact X]).
Qed.
