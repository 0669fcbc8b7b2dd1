(** C75: what the brokers read of one client. *)
From Verif Require Import Bytes Errors Wire Proto Codec SpecFrame SpecCodec Address Message SpecMessage Client SpecKeys SpecClient Consumer SpecConsumer Engine SpecEngine SpecEngine2 Sink SpecStack SinkFacts EngineFacts EngineInv EngineReq EngineEv EngineConn EngineLog EngineView EngineQueue EngineRoute EngineGate EngineNet EngineLife EngineEx CodecFacts MessageFacts ConsumerFacts PropCodec PropMessage PropAck PropClient PropConsumer PropEngine PropEngine2 PropEngine4 PropEngine6 PropStack PropReceipt PropRoute PropDeliver PropSends.
Open Scope N_scope.

(** The commands that name a client, by their type: subscribe, producer, send, ack and
    flow; with the field of the command and that of the client's id in it. *)
Definition client_field (ty : Z) : option (N * N) :=
  match ty with 4%Z => Some (4, 4) | 5%Z => Some (5, 2) | 6%Z => Some (6, 1) | 10%Z => Some (10, 1) | 11%Z => Some (11, 1) | _ => None end.
(** A command that names client [id]. *)
Definition from_client (id : N) (mc : msg_cmd) : bool :=
  match get_z 1 (mc_cmd mc) with
  | Some ty => match client_field ty with
               | Some (k, f) => match get_m k (mc_cmd mc) with
                                | Some s => match get_z f s with Some z => (z =? Z.of_N id)%Z | None => false end
                                | None => false end
               | None => false end
  | None => false
  end.
(** The requests that name a client. *)
Definition own (id : N) (o : outbound) : bool :=
  match o with
  | OSend p => send_pid p =? id
  | OAck (a :: _) => ak_cid a =? id
  | OSubscribe _ _ cid _ _ => cid =? id
  | OFlow cid _ => cid =? id
  | OProducer _ pid _ _ => pid =? id
  | _ => false
  end.
Lemma same_number a b : (Z.of_N a =? Z.of_N b)%Z = (a =? b).
Proof. destruct (N.eqb_spec a b) as [->|H]; [apply Z.eqb_refl|]. apply Z.eqb_neq. intros X. apply N2Z.inj in X. contradiction. Qed.
Lemma denotes_own id now o mc : denotes now o mc -> from_client id mc = own id o.
Proof.
  intros D. unfold from_client. destruct o as [| | |p|acks| | | | |]; cbn [denotes own] in *.
  1-2: destruct D as ((D1 & _) & _); rewrite D1; reflexivity.
  - destruct D as (_ & s & (D1 & _) & _). rewrite D1. reflexivity.
  - destruct D as (s & p0 & (D1 & D2 & _) & _ & D3). rewrite D1. cbn [client_field]. rewrite D2.
    destruct p; destruct D3 as (D3 & _); unfold int_field in D3; rewrite D3; apply same_number.
  - destruct D as (_ & s & a & Ha & (D1 & D2 & _) & D3 & _). rewrite D1. cbn [client_field]. rewrite D2. unfold int_field in D3. rewrite D3.
    destruct acks as [|x l]; [discriminate|]. cbn in Ha. injection Ha as ->. apply same_number.
  - destruct D as (_ & s & (D1 & _) & _). rewrite D1. reflexivity.
  - destruct D as (_ & s & (D1 & D2 & _) & _ & _ & D3 & _). rewrite D1. cbn [client_field]. rewrite D2. unfold int_field in D3. rewrite D3. apply same_number.
  - destruct D as (_ & s & (D1 & _) & _). rewrite D1. reflexivity.
  - destruct D as (_ & s & (D1 & D2 & _) & D3 & _). rewrite D1. cbn [client_field]. rewrite D2. unfold int_field in D3. rewrite D3. apply same_number.
  - destruct D as (_ & s & (D1 & D2 & _) & _ & D3 & _). rewrite D1. cbn [client_field]. rewrite D2. unfold int_field in D3. rewrite D3. apply same_number.
Qed.

(** ** The requests of one kind of one client *)
Definition written_of (P : outbound -> bool) (c : nat) (a : baddr) (l : list obs) : list outbound :=
  flat_map (fun x => match x with OWrite b (Some n) o _ => if baddr_eqb b a && in_nat n (issued c l) && P o then [o] else [] | _ => [] end) l.
Definition one_of (P : outbound -> bool) (l : list (nat * outbound)) (n : nat) : list outbound :=
  match find (fun x : nat * outbound => (fst x =? n)%nat) l with Some (_, o) => if P o then [o] else [] | _ => [] end.
Lemma one_of_all P l : NoDup (map fst l) -> flat_map (one_of P l) (map fst l) = filter P (map snd l).
Proof.
  intros N. assert (X : forall m, (forall x, In x m -> In x l) -> flat_map (one_of P l) (map fst m) = filter P (map snd m)).
  { induction m as [|[n o] m IH]; [reflexivity|]. intros S. cbn [map flat_map filter fst snd]. rewrite IH by (intros; apply S; now right).
    unfold one_of at 1. rewrite (find_issue l n o N) by (apply S; now left). destruct (P o); reflexivity. }
  now apply X.
Qed.
Lemma written_ones P (NC : forall cr, P (OConnect cr) = false) E h s c a : reach E h s -> written_of P c a (s_log s) = flat_map (one_of P (issues c (s_log s))) (wrote_for c a (s_log s)).
Proof.
  intros H. pose proof (reach_all E h s H) as V. unfold written_of, wrote_for, wrote. set (L := s_log s).
  assert (ND : NoDup (map fst (issues c L))) by (rewrite issues_fst; apply issued_nodup with E h; exact H).
  assert (W : forall n o ok, In (OWrite a (Some n) o ok) L -> In n (issued c L) -> one_of P (issues c L) n = if P o then [o] else []).
  { intros n o ok X Y. destruct (C39_commands_unchanged E h s a n o ok H X) as (q & (c' & Hq) & Q). fold L in Hq.
    assert (Z : In (n, q) (issues c L)).
    { rewrite <- issues_fst in Y. apply in_map_iff in Y as ([m q'] & Y1 & Y2). cbn in Y1. subst m. apply issues_in in Y2 as Y3.
      destruct (r_uniq s (v_r E s V) c' n q c q' Hq Y3) as [_ ->]. exact Y2. }
    unfold one_of. rewrite (find_issue _ n q ND Z). destruct q; try (subst o; reflexivity). destruct Q as (d & m & ->). now rewrite !NC. }
  assert (G : forall l, (forall x, In x l -> In x L) ->
    flat_map (fun x => match x with OWrite b (Some n) o _ => if baddr_eqb b a && in_nat n (issued c L) && P o then [o] else [] | _ => [] end) l =
    flat_map (one_of P (issues c L)) (filter (fun n => in_nat n (issued c L)) (flat_map (fun x => match x with OWrite b (Some n) _ _ => if baddr_eqb b a then [n] else [] | _ => [] end) l))).
  { induction l as [|x l IH]; [reflexivity|]. intros S. cbn [flat_map]. rewrite IH by (intros; apply S; now right). rewrite filter_app, flat_map_app. f_equal.
    specialize (S x (or_introl eq_refl)). destruct x; try reflexivity. destruct src as [n|]; [|reflexivity].
    destruct (baddr_eqb a0 a) eqn:B; [|reflexivity]. apply baddr_eqb_spec in B. subst a0. cbn [filter andb].
    destruct (in_nat n (issued c L)) eqn:I; [|reflexivity]. apply is_in_spec in I. cbn [flat_map andb]. now rewrite (W n o ok S I), app_nil_r. }
  now apply G.
Qed.
(** Those written to connection [a] are, in order, the first of those issued. *)
Lemma kind_prefix P (NC : forall cr, P (OConnect cr) = false) E h s c a : reach E h s ->
  (forall n b o, In (OForward n b o) (s_log s) -> P o = true -> In n (issued c (s_log s)) -> b = a) ->
  initial (written_of P c a (s_log s)) (filter P (requests c (s_log s))).
Proof.
  intros H One. rewrite (written_ones P NC E h s c a H). pose proof (reach_all E h s H) as V. destruct (reach_queues E h s H) as [Q (rest & T & _)].
  pose proof (issued_nodup E h s c H) as ND. rewrite <- issues_fst in ND.
  rewrite <- issues_snd, <- (one_of_all P _ ND), issues_fst.
  set (G := flat_map (one_of P (issues c (s_log s)))). set (mine := filter (fun n => in_nat n (issued c (s_log s)))).
  assert (Sw : initial (wrote a (s_log s)) (sent_to a (s_log s))).
  { rewrite <- srcs_queued, <- srcs_written. destruct (get_conn a (s_conns s)) as [k|] eqn:K.
    - destruct (q_out s Q a k K) as (lost & X & _). rewrite X, srcs_app. eexists. reflexivity.
    - destruct (q_none s Q a K) as (-> & -> & _). exists []. reflexivity. }
  assert (W : forall n b o, In (OForward n b o) (s_log s) -> In n (issued c (s_log s)) -> b <> a -> one_of P (issues c (s_log s)) n = []).
  { intros n b o X Y Z. destruct (c_fw E s (v_c E s V) n b o X) as (_ & q & (c' & Q1) & Q2).
    assert (Zi : In (n, q) (issues c (s_log s))).
    { rewrite <- issues_fst in Y. apply in_map_iff in Y as ([m q'] & Y1 & Y2). cbn in Y1. subst m. apply issues_in in Y2 as Y3.
      destruct (r_uniq s (v_r E s V) c' n q c q' Q1 Y3) as [_ ->]. exact Y2. }
    unfold one_of. rewrite (find_issue _ n q ND Zi). destruct (P q) eqn:Pq; auto. exfalso.
    destruct q; try (rewrite NC in Pq; discriminate); unfold formed in Q2; subst o; apply Z; eapply One; eauto. }
  assert (Ef : G (mine (sent_to a (s_log s))) = G (mine (forwarded (s_log s)))).
  { assert (X : forall l, (forall x, In x l -> In x (s_log s)) -> G (mine (sent_to a l)) = G (mine (forwarded l))).
    { induction l as [|x l IH]; [reflexivity|]. intros Sb. specialize (IH (fun y Hy => Sb y (or_intror Hy))). specialize (Sb x (or_introl eq_refl)).
      destruct x; try exact IH. change (forwarded (OForward n a0 o :: l)) with ([n] ++ forwarded l).
      change (sent_to a (OForward n a0 o :: l)) with ((if baddr_eqb a0 a then [n] else []) ++ sent_to a l).
      unfold mine, G in *. rewrite !filter_app, !flat_map_app, IH. f_equal. destruct (baddr_eqb a0 a) eqn:B; [reflexivity|]. apply baddr_eqb_neq in B.
      cbn [filter]. destruct (in_nat n (issued c (s_log s))) eqn:M; [|reflexivity]. apply is_in_spec in M. cbn [flat_map]. rewrite (W n a0 o Sb M B). reflexivity. }
    apply X. auto. }
  apply initial_trans with (G (mine (sent_to a (s_log s)))).
  - unfold G, wrote_for. apply initial_flat. fold mine. destruct Sw as [r ->]. unfold mine. rewrite filter_app. now eexists.
  - rewrite Ef. unfold G. apply initial_flat. rewrite (q_up s Q c) at 1. fold mine. rewrite T. unfold mine at 2. rewrite filter_app. fold mine. rewrite <- app_assoc. now eexists.
Qed.

(** ** Whose commands they are *)
Lemma api_own id id' o : api_request id' o = true -> own id o = true -> id' = id.
Proof.
  destruct o as [| | |p|acks| | | | |]; cbn [api_request own]; try discriminate; intros X Y; try (apply N.eqb_eq in X; apply N.eqb_eq in Y; congruence).
  - apply N.eqb_eq in X, Y. destruct p; cbn in *; congruence.
  - destruct acks as [|a [|]]; try discriminate. apply N.eqb_eq in X, Y. congruence.
Qed.
Lemma api_mine id o : api_request id o = true -> is_connect o = false -> (forall rid t, o <> OLookup rid t) -> own id o = true.
Proof.
  destruct o as [| | |p|acks| | | | |]; cbn [api_request own is_connect]; try discriminate; auto; intros X _ Y; try (apply N.eqb_eq in X; subst; apply N.eqb_refl).
  - destruct acks as [|a [|]]; try discriminate. exact X.
  - now elim (Y rid topic).
Qed.
Lemma reg_id E h s c id : reach E h s -> In (OReg c id) (s_log s) -> ch_id (s_ch s c) = id.
Proof.
  intros H R. apply registered_in in R. rewrite (g_reg s (reach_gate E h s H)) in R. exact (h_cid s (v_h E s (reach_all E h s H)) c id R).
Qed.
Lemma reg_one E h s c c' id : reach E h s -> newids h <= 2 ^ 64 -> In (OReg c id) (s_log s) -> In (OReg c' id) (s_log s) -> c' = c.
Proof.
  intros H Hn R R'. apply registered_in in R, R'. rewrite (g_reg s (reach_gate E h s H)) in R, R'.
  apply in_map_iff in R as (x & Ex & Hx), R' as (y & Ey & Hy). injection Ex as <- <-. injection Ey as <- Ei.
  destruct (reach_ids E h s H) as [_ J]. destruct (J Hn) as [J' _]. unfold ids in J'. apply NoDup_app_l in J'.
  clear - Hx Hy Ei J'. induction (s_clients s) as [|z l IH]; [destruct Hx|]. cbn [map] in J'. inversion J' as [|? ? N1 N2]; subst.
  destruct Hx as [->|Hx], Hy as [->|Hy]; auto.
  - exfalso. apply N1. rewrite <- Ei. now apply in_map.
  - exfalso. apply N1. rewrite Ei. now apply in_map.
Qed.
Lemma forwarded_taken E h s n b o : reach E h s -> In (OForward n b o) (s_log s) -> exists c' q id', In (OIssue c' n q) (s_log s) /\ formed E (s_log s) n q o /\ In (OReg c' id') (s_log s).
Proof.
  intros H F. pose proof F as F0. apply in_split in F as (l1 & l2 & El). destruct (reach_entries E h s H _ _ _ El) as (_ & _ & Tk & _ & q & [c' Q] & Fq).
  destruct (c_fw E s (v_c E s (reach_all E h s H)) n b o F0) as (_ & q2 & (c2 & Q1) & Q2).
  assert (Q' : In (OIssue c' n q) (s_log s)) by (rewrite El; apply in_app_iff; auto). destruct (r_uniq s (v_r E s (reach_all E h s H)) _ _ _ _ _ Q' Q1) as [-> ->].
  exists c2, q2.
  assert (T' : In (OTake n) l1) by (clear - Tk; unfold takes in Tk; apply in_flat_map in Tk as (x & X & Y); destruct x; try destruct Y as []; try contradiction; subst; auto).
  apply in_split in T' as (k1 & k2 & Ek).
  assert (Es : s_log s = k1 ++ OTake n :: (k2 ++ OForward n b o :: l2)) by (rewrite El, Ek, <- app_assoc; reflexivity).
  destruct (reach_entries E h s H _ _ _ Es) as (_ & (o0 & c0 & Q0) & _).
  assert (Q0' : In (OIssue c0 n o0) (s_log s)) by (rewrite Es; apply in_app_iff; auto). destruct (r_uniq s (v_r E s (reach_all E h s H)) _ _ _ _ _ Q0' Q1) as [-> ->].
  destruct (reach_regged E h s H _ _ _ Es c2 q2 Q0) as (id' & Rg). exists id'. split; [exact Q1|]. split; [exact Q2|]. rewrite Es. apply in_app_iff. auto.
Qed.
(** What names [id] and is forwarded comes from the client registered with it. *)
Lemma own_forward E h s c id n b o : reach E h s -> newids h <= 2 ^ 64 -> In (OReg c id) (s_log s) -> In (OForward n b o) (s_log s) -> own id o = true -> In (OIssue c n o) (s_log s).
Proof.
  intros H Hn R F O. destruct (forwarded_taken E h s n b o H F) as (c' & q & id' & I & Fq & R').
  assert (q = o) as -> by (destruct q; try congruence; destruct Fq as (d & m & -> & _); discriminate).
  destruct (c_api E s (v_c E s (reach_all E h s H)) c' n o I) as [_ A]. apply (api_own id) in A; [|exact O]. rewrite (reg_id E h s c' id' H R') in A. subst id'.
  now rewrite (reg_one E h s c c' id H Hn R R') in I.
Qed.
Lemma own_written E h s c id b : reach E h s -> newids h <= 2 ^ 64 -> In (OReg c id) (s_log s) ->
  map snd (filter (fun x => own id (snd x)) (written b (s_log s))) = written_of (own id) c b (s_log s).
Proof.
  intros H Hn R. unfold written_of.
  assert (G : forall l, incl l (s_log s) -> map snd (filter (fun x => own id (snd x)) (written b l)) =
    flat_map (fun x => match x with OWrite b0 (Some n) o _ => if baddr_eqb b0 b && in_nat n (issued c (s_log s)) && own id o then [o] else [] | _ => [] end) l).
  { induction l as [|x l IH]; intros I; [reflexivity|]. unfold written in *. cbn [flat_map]. rewrite filter_app, map_app, IH by (intros z Z; apply I; now right). f_equal.
    assert (Ix : In x (s_log s)) by (apply I; now left). destruct x as [| | | | | | |b0 src o ok| | | | | | | | | | |]; try reflexivity.
    destruct (baddr_eqb b0 b) eqn:B; [|destruct src; reflexivity]. cbn [filter snd].
    destruct src as [n|]; [|apply (C40_engine_writes_pongs E h s) in Ix; [subst o; reflexivity|exact H]].
    destruct (own id o) eqn:O; [|now rewrite andb_false_r]. cbn [andb map snd].
    apply in_split in Ix as (l1 & l2 & El). pose proof (reach_entries E h s H _ _ _ El) as Y. cbn in Y.
    assert (F : In (OForward n b0 o) (s_log s)) by (rewrite El; apply in_app_iff; auto). pose proof (own_forward E h s c id n b0 o H Hn R F O) as Z.
    assert (in_nat n (issued c (s_log s)) = true) as -> by (apply is_in_spec, issued_in; eauto). reflexivity. }
  apply G. intros x X. exact X.
Qed.

(** A consumer or a producer has been built: its handshake, with the replies [rs],
    has made the requests [made] and succeeded. *)
Definition built (id : N) (rs : list reply) (made : list outbound) : Prop :=
  (exists name topic sub permits, exec (consumer_connect id name topic sub permits Client.fresh) rs = (made, Some (Ok tt))) \/
  (exists name topic, exec (producer_connect id name topic Client.fresh) rs = (made, Some (Ok tt))).
Lemma built_cases id rs made : built id rs made -> exists mine, (match mine with [OSubscribe _ _ cid _ _; OFlow cid' _] => cid = id /\ cid' = id | [OProducer _ pid _ _] => pid = id | _ => False end) /\
  exists topic, made = match asks_proxy rs with
     | None => [plain_connect; OLookup 0 topic]
     | Some t => [plain_connect; OLookup 0 topic; proxy_connect t; OLookup 1 topic]
     end ++ mine.
Proof.
  intros [(name & topic & sub & permits & X)|(name & topic & X)].
  - apply built_shape in X. destruct (asks_proxy rs); (eexists; split; [|exists topic; rewrite X; cbn [app]; reflexivity]); cbn; auto.
  - apply producer_shape in X. destruct (asks_proxy rs); (eexists; split; [|exists topic; rewrite X; cbn [app]; reflexivity]); cbn; auto.
Qed.
Lemma own_goes E h s c id rs made more : reach E h s -> newids h <= 2 ^ 64 -> built id rs made ->
  requests c (s_log s) = made ++ more -> (forall cr, ~ In (OConnect cr) more) ->
  forall n b o, In (OForward n b o) (s_log s) -> own id o = true -> In n (issued c (s_log s)) -> b = broker_of (e_cfg E) rs.
Proof.
  intros H Hn X Rq Nm n b o F O I. apply built_cases in X as (mine & Sh & topic & X). apply In_nth_error in I as [k K]. pose proof (C68_route E h s c k n b _ H Hn K F) as G.
  assert (Rk : nth_error (requests c (s_log s)) k = Some o).
  { pose proof (issue_nth c (s_log s) k) as Y. rewrite K in Y. destruct (nth_error (requests c (s_log s)) k) as [o0|]; [|contradiction]. f_equal.
    destruct (forwarded_taken E h s n b o H F) as (c' & q & _ & Q' & Fq & _). destruct (r_uniq s (v_r E s (reach_all E h s H)) _ _ _ _ _ Y Q') as [_ ->].
    unfold formed in Fq. destruct q; try congruence. destruct Fq as (d & m & Fq & _). subst o. discriminate. }
  rewrite (goes_nth _ _ _ _ _ Rk) in G. injection G as <-. rewrite Rq in Rk |- *.
  set (pre := match asks_proxy rs with None => [plain_connect; OLookup 0 topic] | Some t => [plain_connect; OLookup 0 topic; proxy_connect t; OLookup 1 topic] end) in *.
  assert (Lk : (length pre <= k)%nat).
  { destruct (Nat.lt_ge_cases k (length pre)) as [L|L]; [|exact L]. exfalso. rewrite X, <- app_assoc, nth_error_app1 in Rk by exact L. subst pre. clear - Rk O L.
    destruct (asks_proxy rs); cbn [length] in L; do 4 (destruct k as [|k]; [try lia; cbn [nth_error] in Rk; injection Rk as <-; discriminate|]); lia. }
  rewrite X, <- app_assoc, firstn_app, firstn_all2 by exact Lk. rewrite after_app_made.
  assert (Np : forall cr, ~ In (OConnect cr) (firstn (k - length pre) (mine ++ more))).
  { intros cr Y. assert (Z : In (OConnect cr) (mine ++ more)) by (rewrite <- (firstn_skipn (k - length pre) (mine ++ more)); apply in_app_iff; now left).
    apply in_app_iff in Z as [Z|Z]; [|exact (Nm cr Z)]. clear - Sh Z.
    destruct mine as [|[] [|[] [|]]]; try contradiction; cbn [In] in Z; intuition discriminate. }
  rewrite (after_plain _ (firstn _ (mine ++ more))) by (intros cr Y; elim (Np cr Y)).
  transitivity (after (e_cfg E) (broker_address (e_cfg E)) pre); [destruct o; try discriminate; reflexivity|].
  subst pre. unfold broker_of, broker_address. destruct (asks_proxy rs); reflexivity.
Qed.

(** Client [c] has been registered with the id [id] and a consumer or producer has been
    built on it; it has made no further connect. Whatever the transports do and
    whatever part of the bytes on the wires the brokers have read: the commands naming
    [id] among them are, on the connection of its broker, requests of [c], in the order
    of the calls, each at most once and unchanged; exactly the first [k] of them if
    that transport, once it has failed, takes no more bytes (in particular if it never
    fails). On every other connection there are none. *)
Theorem C75_broker_reads_client : forall E io h s c id rs made more got, let a := broker_of (e_cfg E) rs in
  reach E h s -> newids h <= 2 ^ 64 -> In (OReg c id) (s_log s) ->
  built id rs made -> requests c (s_log s) = made ++ more -> (forall cr, ~ In (OConnect cr) more) ->
  (forall b, clock_fits b h) -> (forall b n o, In (n, o) (queued b (s_log s)) -> sendable_request o) -> brokers_read E io h got ->
  (exists xs, subseq xs (filter (own id) (requests c (s_log s))) /\ Forall2 (says (e_cfg E)) xs (filter (from_client id) (got a))) /\
  (fails_for_good (attempts E a (io a) h) ->
    exists k, Forall2 (says (e_cfg E)) (firstn k (filter (own id) (requests c (s_log s)))) (filter (from_client id) (got a))) /\
  forall b, b <> a -> filter (from_client id) (got b) = [].
Proof.
  intros E io h s c id rs made more got a H Hn Rg X Rq Nm Ws Q G.
  pose proof (own_goes E h s c id rs made more H Hn X Rq Nm) as Go. fold a in Go.
  assert (Gen : forall b l mcs, initial (got b) mcs -> Forall2 request_of l mcs ->
    exists xs, initial xs (map snd (filter (fun x => own id (snd x)) l)) /\ Forall2 (says (e_cfg E)) xs (filter (from_client id) (got b))).
  { intros b l mcs I F.
    pose proof (Forall2_filter request_of (fun x => own id (snd x)) (from_client id) _ _ (fun x y Y => match Y with ex_intro _ now (conj _ D) => eq_sym (denotes_own id now _ _ D) end) F) as F'.
    destruct (Forall2_initial _ _ (filter (from_client id) (got b)) _ F') as (xs & Ix & Fx); [now apply filter_initial|].
    exists (map snd xs). split; [destruct Ix as [r ->]; rewrite map_app; eexists; reflexivity|].
    assert (Sx : forall x, In x xs -> own id (snd x) = true) by (intros x Y; destruct Ix as [r Ix]; assert (Z : In x (filter (fun x => own id (snd x)) l)) by (rewrite Ix; apply in_app_iff; auto); now apply filter_In in Z).
    clear - Fx Sx. induction Fx as [|x y xs ys (now & Nw & D) F IH]; cbn [map]; constructor; [|apply IH; intros z Z; apply Sx; now right].
    exists now. split; [exact Nw|]. specialize (Sx x (or_introl eq_refl)). destruct (snd x); try discriminate; exact D. }
  assert (Per : forall b, exists xs, subseq xs (written_of (own id) c b (s_log s)) /\ Forall2 (says (e_cfg E)) xs (filter (from_client id) (got b))).
  { intros b. destruct (got_taken E io h s got b H (Ws b) (Q b) G) as (mcs & I & F). destruct (Gen b _ _ I F) as (xs & Ix & Fx). exists xs. split; [|exact Fx].
    rewrite <- (own_written E h s c id b H Hn Rg). eapply subseq_trans; [apply initial_subseq; exact Ix|]. apply subseq_map, subseq_keep.
    destruct (attempts_frames E b (io b) h s H (Ws b) (Q b)) as [<- _]. apply subseq_map, filter_subseq. }
  pose proof (kind_prefix (own id) (fun _ => eq_refl) E h s c a H Go) as Ic. split; [|split].
  - destruct (Per a) as (xs & Ix & Fx). exists xs. split; [|exact Fx]. eapply subseq_trans; [exact Ix|]. now apply initial_subseq.
  - intros Fg. destruct (got_written E io h s got a H (Ws a) Fg (Q a) G) as (mcs & I & F). destruct (Gen a _ _ I F) as (xs & Ix & Fx). rewrite (own_written E h s c id a H Hn Rg) in Ix.
    destruct (initial_trans _ _ _ Ix Ic) as [r Sr]. exists (length xs). rewrite Sr, firstn_app, firstn_all, Nat.sub_diag, app_nil_r. exact Fx.
  - intros b Hb. destruct (Per b) as (xs & Ix & Fx). assert (xs = []) as ->; [|now inversion Fx].
    assert (N : written_of (own id) c b (s_log s) = []).
    { unfold written_of. apply flat_map_nil. intros x Ix'. destruct x as [| | | | | | |b0 src o ok| | | | | | | | | | |]; try reflexivity. destruct src as [n|]; [|reflexivity].
      destruct (baddr_eqb b0 b) eqn:Bb; [|reflexivity]. apply baddr_eqb_spec in Bb. subst b0. destruct (in_nat n (issued c (s_log s))) eqn:M; [|reflexivity]. destruct (own id o) eqn:O; [|reflexivity]. exfalso. apply Hb.
      apply is_in_spec in M. apply in_split in Ix' as (l1 & l2 & El). pose proof (reach_entries E h s H _ _ _ El) as Y. cbn in Y. eapply Go; [|exact O|exact M]. rewrite El. apply in_app_iff. left. exact Y. }
    rewrite N in Ix. now inversion Ix.
Qed.
Print Assumptions C75_broker_reads_client.

(** For a consumer that has since made what next_message, next_batch and
    acknowledgements make: the subscription first, then the initial permits, then the
    acknowledgements and permits in the order of the calls. *)
Theorem C75_consumer_reads : forall E io h s c id name topic sub permits rs made more got, let a := broker_of (e_cfg E) rs in
  reach E h s -> newids h <= 2 ^ 64 -> In (OReg c id) (s_log s) ->
  exec (consumer_connect id name topic sub permits Client.fresh) rs = (made, Some (Ok tt)) -> requests c (s_log s) = made ++ more ->
  (forall o, In o more -> (exists n, o = OFlow id n) \/ (exists mid rid, o = OAck [mk_ack id mid rid])) ->
  (forall b, clock_fits b h) -> (forall b n o, In (n, o) (queued b (s_log s)) -> sendable_request o) -> brokers_read E io h got ->
  fails_for_good (attempts E a (io a) h) ->
  exists k, Forall2 (says (e_cfg E))
    (firstn k (OSubscribe topic sub id (match asks_proxy rs with None => 1 | Some _ => 2 end) Shared :: OFlow id (2 * permits) :: more))
    (filter (from_client id) (got a)).
Proof.
  intros E io h s c id name topic sub permits rs made more got a H Hn Rg X Rq Mo Ck Q G Fg.
  assert (Nm : forall cr, ~ In (OConnect cr) more) by (intros cr Y; destruct (Mo _ Y) as [[n Z]|(mid & rid & Z)]; discriminate).
  assert (Bu : built id rs made) by (left; eauto).
  destruct (C75_broker_reads_client E io h s c id rs made more got H Hn Rg Bu Rq Nm Ck Q G) as (_ & K & _). destruct (K Fg) as [k F]. exists k.
  apply built_shape in X.
  assert (Em : filter (own id) more = more).
  { clear - Mo. induction more as [|o l IH]; [reflexivity|]. cbn [filter].
    assert (own id o = true) as -> by (destruct (Mo o (or_introl eq_refl)) as [[n ->]|(mid & rid & ->)]; apply N.eqb_refl). f_equal. apply IH. intros x Y. apply Mo. now right. }
  rewrite Rq, filter_app, Em in F. rewrite X in F. destruct (asks_proxy rs); cbn [filter own app ak_cid plain_connect proxy_connect] in F; rewrite !N.eqb_refl in F; exact F.
Qed.
Print Assumptions C75_consumer_reads.

Lemma drain_decodes f : forall buf ms r mc, drain f buf = (ms, r) -> In mc ms -> exists src rest, decode src = Got mc rest.
Proof.
  induction f as [|f IH]; intros buf ms r mc D I; cbn [drain] in D; [injection D as <- _; destruct I|].
  destruct (decode buf) as [|m rest|] eqn:X; [injection D as <- _; destruct I| |injection D as <- _; destruct I].
  destruct (drain f rest) as [ms' r'] eqn:Y. injection D as <- _. destruct I as [<-|I]; [exists buf, rest; exact X|exact (IH rest ms' r' mc Y I)].
Qed.
Lemma items_decode reads : forall buf closed mc, In (IFrame mc) (framed buf reads closed) -> exists src rest, decode src = Got mc rest.
Proof.
  induction reads as [|r rs IH]; intros buf closed mc I; cbn [framed] in I.
  - exfalso. destruct closed; [|destruct I]. destruct buf; cbn in I; intuition discriminate.
  - destruct (drain_all (buf ++ r)) as [ms [buf'|]] eqn:D; apply in_app_iff in I as [I|I].
    + apply in_map_iff in I as (m & [= ->] & I). unfold drain_all in D. eapply drain_decodes; eauto.
    + eauto.
    + apply in_map_iff in I as (m & [= ->] & I). unfold drain_all in D. eapply drain_decodes; eauto.
    + exfalso. destruct I as [I|[]]. discriminate.
Qed.
Lemma acked_id T (value : bytes -> option T) src rest f d ms i m : decode src = Got f rest -> to_inbound f = Ok (InMessage d) -> unpack value d = Ok ms -> nth_error ms i = Some m ->
  exists sub mid, get_m 9 (mc_cmd f) = Some sub /\ get_m 2 sub = Some mid /\ match d with
    | DSingle _ _ _ => cm_ack m = mid
    | DBatch _ _ _ => get_z 4 (cm_ack m) = Some (Z.of_nat i) /\
        forall k, k <> 4 -> get_z k (cm_ack m) = get_z k mid /\ get_b k (cm_ack m) = get_b k mid /\ get_m k (cm_ack m) = get_m k mid /\ get_ms k (cm_ack m) = get_ms k mid end.
Proof.
  intros D I U Nm. destruct (delivered_id src f rest d D I) as (sub & mid & G1 & G2 & Mk & Hd). exists sub, mid. split; [exact G1|]. split; [exact G2|].
  destruct d as [k w data|k w l].
  - subst w. destruct (C16_single_ack T value k mid data ms U) as (v & _ & ->). destruct i as [|i]; [injection Nm as <-|destruct i; discriminate]. reflexivity.
  - destruct Hd as [-> Hl]. exact (C17_batch_ack_ids T value k mid l ms i m U Hl Nm).
Qed.
(** A message of a client is a message for its id that arrived at its broker, if brokers
    send messages for a consumer only where it has been subscribed. *)
Lemma got_from E h s c id rs made more d : reach E h s -> newids h <= 2 ^ 64 -> In (OReg c id) (s_log s) -> built id rs made ->
  requests c (s_log s) = made ++ more -> (forall cr, ~ In (OConnect cr) more) -> only_after_subscribe c id (s_log s) ->
  In (InMessage d) (gots c (s_log s)) \/ ch_client (s_ch s c) = true /\ In (InMessage d) (ch_down (s_ch s c)) ->
  d_cid d = id /\ exists f, In (IFrame f) (nets (broker_of (e_cfg E) rs) h) /\ to_inbound f = Ok (InMessage d).
Proof.
  intros H Hn Rg Bu Rq Nm Oa Hd.
  assert (Ms : forall l, In (InMessage d) l -> In d (messages l)) by (intros l X; unfold messages; apply in_flat_map; eexists; split; [exact X|now left]).
  destruct (C38_received_in_order E h s c H Hn) as [Ri Rq']. set (v := look (broker_address (e_cfg E)) c (s_log s)) in *.
  assert (Hv : In d (v_inbox v)).
  { destruct Hd as [Hd|[Cl Hd]].
    - destruct Ri as [r ->]. apply in_app_iff. left. unfold v. rewrite look_gots. auto.
    - rewrite (Rq' Cl). apply in_app_iff. right. auto. }
  assert (Id : d_cid d = id).
  { pose proof (inbox_id E c (s_log s) (reach_routes E h s H Hn) d Hv) as X. apply id_reg in X. rewrite <- (reg_id E h s c _ H X). exact (reg_id E h s c id H Rg). }
  split; [exact Id|].
  destruct (inbox_handled _ c (s_log s) d Hv) as (b & ser & Ha). apply in_split in Ha as (l1 & l2 & El). destruct (reach_entries E h s H _ _ _ El) as (_ & Ar & _).
  apply in_split in Ar as (k1 & k2 & Ek).
  assert (Es : s_log s = k1 ++ OArrive b ser (InMessage d) :: (k2 ++ OHandle b ser (InMessage d) :: l2)) by (rewrite El, Ek, <- app_assoc; reflexivity).
  destruct (Oa _ _ _ _ _ Es Id) as (n & topic & sub & rid & t & ok & I & W).
  assert (I' : In (OIssue c n (OSubscribe topic sub id rid t)) (s_log s)) by (rewrite Es; apply in_app_iff; auto).
  assert (W' : In (OWrite b (Some n) (OSubscribe topic sub id rid t) ok) (s_log s)) by (rewrite Es; apply in_app_iff; auto).
  apply in_split in W' as (m1 & m2 & Em). pose proof (reach_entries E h s H _ _ _ Em) as Fw. cbn in Fw.
  assert (Fw' : In (OForward n b (OSubscribe topic sub id rid t)) (s_log s)) by (rewrite Em; apply in_app_iff; auto).
  assert (b = broker_of (e_cfg E) rs) as -> by (apply (own_goes E h s c id rs made more H Hn Bu Rq Nm n b _ Fw'); [apply N.eqb_refl|apply issued_in; eauto]).
  assert (A : In (InMessage d) (SpecEngine.arrivals (broker_of (e_cfg E) rs) (s_log s))).
  { unfold SpecEngine.arrivals. apply in_flat_map. eexists. split; [rewrite Es; apply in_app_iff; right; now left|]. cbn. rewrite baddr_eqb_refl. now left. }
  rewrite (reach_nets E h s _ H) in A. unfold events in A. apply in_flat_map in A as (x & X & Y). destruct x as [f| | |]; try destruct Y.
  exists f. split; [exact X|]. destruct (to_inbound f) as [j| |]; [|destruct Y|destruct Y]. destruct j; cbn [In] in Y; intuition congruence.
Qed.
(** The application acknowledges only messages its consumer has returned (by next_message
    or next_batch), and brokers send messages for a consumer only where it has been
    subscribed. Then every acknowledgement with the consumer's id a broker reads was
    read on the connection of the consumer's broker, and acknowledges exactly one
    message, one that broker has sent to this consumer: with the id it was sent with
    or, for the i-th message of a batch, that id with batch index i. *)
Theorem C75_acks_of_deliveries : forall T (value : bytes -> option T) E io h s c id name topic sub permits rs made more hc cs reads got b mc ack, let a := broker_of (e_cfg E) rs in
  reach E h s -> newids h <= 2 ^ 64 -> In (OReg c id) (s_log s) ->
  exec (consumer_connect id name topic sub permits Client.fresh) rs = (made, Some (Ok tt)) -> requests c (s_log s) = made ++ more ->
  (forall o, In o more -> (exists n, o = OFlow id n) \/ (exists m rid, o = OAck [mk_ack id (cm_ack m) rid] /\ In m (returned (c_log cs)))) ->
  reaches value permits hc cs ->
  (forall i, In i (SpecConsumer.arrivals hc) -> In i (gots c (s_log s)) \/ ch_client (s_ch s c) = true /\ In i (ch_down (s_ch s c))) ->
  only_after_subscribe c id (s_log s) -> nets a h = stream_items reads false ->
  (forall b, clock_fits b h) -> (forall b n o, In (n, o) (queued b (s_log s)) -> sendable_request o) -> brokers_read E io h got ->
  In mc (got b) -> carries mc 10 10 ack -> int_field 1 ack id ->
  b = a /\ int_field 2 ack 0 /\
  exists f d ms i m dsub mid, In (EvNet a (IFrame f)) h /\ to_inbound f = Ok (InMessage d) /\ d_cid d = id /\ unpack value d = Ok ms /\ nth_error ms i = Some m /\
    get_m 9 (mc_cmd f) = Some dsub /\ get_m 2 dsub = Some mid /\ get_ms 3 ack = [cm_ack m] /\
    match d with
    | DSingle _ _ _ => cm_ack m = mid
    | DBatch _ _ _ => get_z 4 (cm_ack m) = Some (Z.of_nat i) /\
        forall k, k <> 4 -> get_z k (cm_ack m) = get_z k mid /\ get_b k (cm_ack m) = get_b k mid /\ get_m k (cm_ack m) = get_m k mid /\ get_ms k (cm_ack m) = get_ms k mid
    end.
Proof.
  intros T value E io h s c id name topic sub permits rs made more hc cs reads got b mc ack a H Hn Rg X Rq Mo Re Ar Oa Nt Ck Q G Im Ca Fa.
  assert (Nm : forall cr, ~ In (OConnect cr) more) by (intros cr Y; destruct (Mo _ Y) as [[n Z]|(mid & rid & Z & _)]; discriminate).
  assert (Bu : built id rs made) by (left; eauto).
  destruct (C75_broker_reads_client E io h s c id rs made more got H Hn Rg Bu Rq Nm Ck Q G) as ((xs & Sx & F) & _ & Ot). fold a in F, Ot.
  assert (Fc : from_client id mc = true).
  { destruct Ca as (C1 & C2 & _). unfold from_client. rewrite C1. cbn [client_field]. rewrite C2. unfold int_field in Fa. rewrite Fa. apply Z.eqb_refl. }
  assert (b = a) as ->.
  { destruct (baddr_eqb b a) eqn:B; [now apply baddr_eqb_spec|]. apply baddr_eqb_neq in B. specialize (Ot b B). exfalso.
    assert (Y : In mc (filter (from_client id) (got b))) by (apply filter_In; auto). rewrite Ot in Y. destruct Y. }
  split; [reflexivity|].
  assert (Im' : In mc (filter (from_client id) (got a))) by (apply filter_In; auto).
  assert (exists o, In o xs /\ says (e_cfg E) o mc) as (o & Io & So).
  { clear - F Im'. induction F as [|x y l m X F IH]; [destruct Im'|]. destruct Im' as [->|I]; [exists x; split; [now left|exact X]|]. destruct (IH I) as (o & A & B). exists o. split; [now right|exact B]. }
  assert (Ix : In o (filter (own id) (requests c (s_log s)))).
  { clear - Sx Io. induction Sx as [|x p q S IH|x p q S IH]; [destruct Io| |right; auto]. destruct Io as [->|Io]; [now left|right; auto]. }
  apply filter_In in Ix as [Ix Ow]. rewrite Rq in Ix.
  assert (exists m rid, o = OAck [mk_ack id (cm_ack m) rid] /\ In m (returned (c_log cs))) as (m & rid & -> & Rm).
  { apply in_app_iff in Ix as [Ix|Ix].
    - exfalso. apply built_shape in X. destruct So as (now & _ & D). destruct Ca as (C1 & _).
      assert (Z : forall ty k x, carries mc ty k x -> ty <> 10%Z -> False) by (intros ty k x (Y & _) Ne; congruence).
      subst made. destruct (asks_proxy rs); cbn [In] in Ix;
        repeat match goal with Y : _ \/ _ |- _ => destruct Y as [<-|Y] end; try contradiction; try discriminate Ow;
        cbn [denotes] in D; decompose [and ex] D; match goal with Y : carries mc _ _ _ |- _ => apply (Z _ _ _ Y); discriminate end.
    - destruct (Mo o Ix) as [[n ->]|Y]; [|exact Y]. exfalso. destruct So as (now & _ & D). destruct Ca as (C1 & _). cbn [denotes] in D. destruct D as (_ & x & (Y & _) & _). congruence. }
  destruct So as (now & _ & D). cbn [denotes] in D. destruct D as (_ & x & ak & Hk & Cx & _ & _ & F2 & F3). cbn in Hk. injection Hk as <-. cbn in F2, F3.
  assert (x = ack) as -> by (destruct Ca as (_ & C2 & _), Cx as (_ & C2' & _); congruence). split; [exact F2|].
  assert (Sm : In m (stream value (SpecConsumer.arrivals hc))).
  { pose proof (run_part value hc _ _ (init_lock permits) Re) as HP. apply (part_In _ _ _ HP). unfold visible. apply in_app_iff. now left. }
  unfold stream in Sm. apply in_flat_map in Sm as (e & He & Hm). unfold event_messages in Hm. destruct e as [| | | | | d | | | |]; try destruct Hm.
  destruct (unpack value d) as [ms| |] eqn:U; try destruct Hm. apply In_nth_error in Hm as [i Hi].
  destruct (got_from E h s c id rs made more d H Hn Rg Bu Rq Nm Oa (Ar _ He)) as (Id & f & Hf & Hin). fold a in Hf.
  assert (Hf' : In (IFrame f) (framed [] reads false)) by (rewrite Nt in Hf; exact Hf). apply items_decode in Hf' as (src & rest & Df).
  destruct (acked_id T value src rest f d ms i m Df Hin U Hi) as (dsub & mid & G1 & G2 & G3).
  exists f, d, ms, i, m, dsub, mid. split; [|split; [exact Hin|]; split; [exact Id|]; split; [exact U|]; split; [exact Hi|]; split; [exact G1|]; split; [exact G2|]; split; [exact F3|exact G3]].
  unfold nets in Hf. apply in_flat_map in Hf as (ev & He2 & Y). destruct ev; try destruct Y. destruct (baddr_eqb a0 a) eqn:B; [|destruct Y]. apply baddr_eqb_spec in B. subst a0. destruct Y as [->|[]]. exact He2.
Qed.
Print Assumptions C75_acks_of_deliveries.

(** A consumer behind the proxy is sent a batch of two messages; it returns both and
    the application acknowledges the second. The broker has read the acknowledgement. *)
Definition r_batch : item := IFrame (mk_cmd (base 9 9 [(1, PInt 0); (2, PMsg [(1, PInt 7); (2, PInt 8)])])
  (Some (mk_payload [(1, PBytes (str "p")); (2, PInt 0); (3, PInt 0); (11, PInt 2)] (batch_part (str "a") ++ batch_part (str "b"))))).
Definition r_d : inbound := InMessage (DBatch 0 [(1, PInt 7); (2, PInt 8)] [mk_batched [(3, PInt 1)] (str "a"); mk_batched [(3, PInt 1)] (str "b")]).
Definition r_m : cmsg bytes := mk_cmsg (str "b") [(1, PInt 7); (2, PInt 8); (4, PInt 1)].
Definition r_ack : outbound := OAck [mk_ack 0 (cm_ack r_m) 3].
Definition r_events : list event := firstn 34 w_events ++ [EvNet xP r_batch; EvConn xP; EvRecv 0%nat; EvIssue 0%nat r_ack; EvClient 0%nat; EvWrite xP 0 true].
Definition r_hc : list cev :=
  [Arrive r_d; Start 0%nat NextMessage; Step 0%nat; Step 0%nat; Step 0%nat; Step 0%nat; Start 1%nat NextMessage; Step 1%nat; Step 1%nat].
Definition r_frames : list bytes := flat_map (fun x => match x with IFrame mc => match encode true mc with Ok b => [b] | _ => [] end | _ => [] end)
  [f_conn1; f_lookup 1 (str "u") 0; f_success 2; r_batch].
Definition r_log : list obs := Eval vm_compute in log_of r_events.
Lemma r_log_eq : log_of r_events = r_log. Proof. vm_compute. reflexivity. Qed.
Lemma r_writes b : writes_succeed xE b (z_io b) r_events.
Proof.
  split; [|intros now ok X; unfold r_events, w_events in X; cbn [firstn app In] in X; PropReceipt.walk X; injection X as _ <- _; reflexivity].
  destruct (baddr_dec b xA) as [->|N]; [apply all_ok_check; vm_compute; reflexivity|].
  destruct (baddr_dec b xP) as [->|N2]; [apply all_ok_check; vm_compute; reflexivity|].
  intros x X. exfalso. rewrite no_offers in X; [destruct X|]. clear X. intros now ok Y. unfold r_events, w_events in Y; cbn [firstn app In] in Y; PropReceipt.walk Y; injection Y; intros _ _ Y'; (now apply N) || (now apply N2).
Qed.
Lemma r_ack_fits : sendable_request (OAck [mk_ack 0 [(1, PInt 7); (2, PInt 8); (4, PInt 1)] 3]).
Proof.
  split; [|split; [vm_compute; reflexivity|discriminate]]. cbn [req_ok]. apply Forall_cons; [|apply Forall_nil].
  split; [vm_compute; reflexivity|]. split; [split; vm_compute; reflexivity|vm_compute; reflexivity].
Qed.
Lemma r_sendable a m o : In (m, o) (SpecEngine.queued a r_log) -> sendable_request o.
Proof.
  intros X. unfold SpecEngine.queued in X. apply in_flat_map in X as (x & Hx & Hy).
  assert (S : Forall (fun x => match x with OForward _ _ o => sendable_request o | _ => True end) r_log).
  { unfold r_log. repeat (apply Forall_cons; [solve [exact I|exact r_ack_fits|x_fit]|]). apply Forall_nil. }
  rewrite Forall_forall in S. specialize (S x Hx).
  destruct x as [| | | | |n b o1| | | | | | | | | | | | |]; try contradiction.
  - destruct (baddr_eqb b a); [|contradiction]. destruct Hy as [[= _ <-]|[]]. exact S.
  - exfalso. unfold r_log in Hx. cbn [In] in Hx. PropReceipt.walk Hx.
Qed.
Lemma r_causal : only_after_subscribe 0%nat 0 r_log.
Proof.
  unfold r_log. intros l1 b ser d l2 El D. splits El; try discriminate D.
  all: exists 4%nat, (str "t"), (str "s"), 2, Shared, true; split; cbn [In]; repeat (first [now left|right]).
Qed.
Example C75_meets : exists s cs, let a := broker_of (e_cfg xE) x_rs in let got := read_everything xE z_io r_events in
  a = xP /\ reach xE r_events s /\ newids r_events <= 2 ^ 64 /\ In (OReg 0%nat 0) (s_log s) /\
  exec (consumer_connect 0 (str "n") (str "t") (str "s") 250 Client.fresh) x_rs = (x_made, Some (Ok tt)) /\ requests 0%nat (s_log s) = x_made ++ [r_ack] /\
  r_ack = OAck [mk_ack 0 (cm_ack r_m) 3] /\ In r_m (returned (c_log cs)) /\ reaches (fun b => Some b) 250 r_hc cs /\
  (forall i, In i (SpecConsumer.arrivals r_hc) -> In i (gots 0%nat (s_log s))) /\
  only_after_subscribe 0%nat 0 (s_log s) /\ nets a r_events = stream_items r_frames false /\
  (forall b, clock_fits b r_events) /\ (forall b n o, In (n, o) (SpecEngine.queued b (s_log s)) -> sendable_request o) /\ brokers_read xE z_io r_events got /\
  fails_for_good (attempts xE a (z_io a) r_events) /\ length (filter (from_client 0) (got a)) = 3%nat /\
  exists mc ack, In mc (got a) /\ carries mc 10 10 ack /\ int_field 1 ack 0.
Proof.
  destruct (log_reach r_events) as (s & R & L); [rewrite r_log_eq; discriminate|]. rewrite r_log_eq in L.
  destruct (crun_some r_hc (fun cs => nth_error (returned (c_log cs)) 1 = Some r_m)) as (cs & RC & C); [vm_compute; reflexivity|].
  assert (Sd : forall b n o, In (n, o) (SpecEngine.queued b (s_log s)) -> sendable_request o) by (rewrite L; apply r_sendable).
  exists s, cs. cbv zeta. change (broker_of (e_cfg xE) x_rs) with xP. split; [reflexivity|]. split; [exact R|]. split; [vm_compute; discriminate|]. 
  split; [rewrite L; unfold r_log; cbn [In]; repeat (first [left; reflexivity|right])|]. split; [exact x_made_eq|]. split; [rewrite L; vm_compute; reflexivity|]. split; [reflexivity|].
  split; [exact (nth_error_In _ _ C)|]. split; [exact RC|]. split; [intros i [<-|[]]; rewrite L; vm_compute; now left|].
  split; [rewrite L; exact r_causal|]. split; [vm_compute; reflexivity|]. split; [intros b; exact (proj2 (r_writes b))|]. split; [exact Sd|].
  split; [apply (read_all xE z_io r_events s R r_writes Sd)|]. split; [exact (ok_for_good _ (proj1 (r_writes xP)))|]. split; [vm_compute; reflexivity|].
  assert (G : exists mc, nth_error (read_everything xE z_io r_events xP) 4 = Some mc /\ exists ack, carries mc 10 10 ack /\ int_field 1 ack 0).
  { let x := eval vm_compute in (nth_error (read_everything xE z_io r_events xP) 4) in
    match x with Some (mk_cmd [(1, PInt 10); (10, PMsg ?a)] ?p) => exists (mk_cmd (base 10 10 a) p) end. split; [vm_compute; reflexivity|].
    eexists. split; [apply carries_base; discriminate|vm_compute; reflexivity]. }
  destruct G as (mc & G & ack & A & B). exists mc, ack. split; [exact (nth_error_In _ _ G)|]. auto.
Qed.
