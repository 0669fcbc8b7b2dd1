(** C59, C60: the whole stack, from the bytes of the broker to what next_message
    returns, and from the calls of send to the bytes on the wire. *)
From Verif Require Import Bytes Errors Wire Proto Codec SpecFrame SpecCodec Address Message SpecMessage Client SpecKeys SpecClient Consumer SpecConsumer Engine SpecEngine SpecEngine2 Sink SpecStack SinkFacts EngineFacts EngineInv EngineReq EngineEv EngineConn EngineLog EngineQueue EngineNet EngineEx CodecFacts MessageFacts PropCodec PropMessage PropClient PropConsumer PropEngine2 PropEngine6.
Open Scope N_scope.

Lemma stream_app {T} (decode : bytes -> option T) l m : stream decode (l ++ m) = stream decode l ++ stream decode m.
Proof. apply flat_map_app. Qed.
Lemma stream_messages {T} (decode : bytes -> option T) l : stream decode l = stream decode (map InMessage (messages l)).
Proof.
  induction l as [|i l IH]; [reflexivity|]. unfold messages in *. cbn [flat_map]. rewrite map_app, stream_app, <- IH. change (i :: l) with ([i] ++ l). rewrite stream_app. f_equal.
  destruct i; reflexivity.
Qed.
Lemma messages_app l m : messages (l ++ m) = messages l ++ messages m.
Proof. apply flat_map_app. Qed.
(** The broker has written the frames of [mcs] to connection [a]; the network has
    delivered the first [n] of them and part of the next, cut in any way; the
    connection has read what there is to read. Client [c], with id [id], has been
    assigned to that broker since log [l1] and is used by a consumer. Then the
    messages returned by its next_message calls, those the consumer has and has not
    returned yet and those on their way through the engine are, in this order and
    each exactly once, the messages for [id] in the frames that have arrived since
    (preceded by what the engine took for the client before). *)
Theorem C59_consumer_stack : forall T (decode : bytes -> option T) oc E h s c id a k permits hc cs l1 l2 mcs frames reads n part,
  Forall sendable mcs -> Forall2 (fun mc b => encode oc mc = Ok b) mcs frames -> (n <= length frames)%nat ->
  concat reads = concat (firstn n frames) ++ part ->
  (part = [] \/ exists more, more <> [] /\ nth_error frames n = Some (part ++ more)) ->
  reach E h s -> newids h <= 2 ^ 64 -> nets a h = stream_items reads false ->
  s_log s = l1 ++ l2 -> stays (broker_address (e_cfg E)) c a id l1 (s_log s) -> s_phase s <> PStop ->
  ch_client (s_ch s c) = true -> get_conn a (s_conns s) = Some k ->
  only_next_message hc -> reaches decode permits hc cs -> SpecConsumer.arrivals hc = gots c (s_log s) ++ ch_down (s_ch s c) ->
  returned (c_log cs) ++ pending decode cs ++ stream decode (map InMessage (messages_for id (map snd (k_n2e k)))) =
  stream decode (map InMessage (v_inbox (look (broker_address (e_cfg E)) c l1) ++
    messages_for id (skipn (length (handles a l1)) (events (map IFrame (firstn n mcs)))))).
Proof.
  intros T decode oc E h s c id a k permits hc cs l1 l2 mcs frames reads n part F F2 Ln Cr Pa H Hn Nt L St Ph Cl K On Re Ar.
  rewrite (C02_stream_reassembly oc mcs frames reads n part F F2 Ln Cr Pa) in Nt.
  pose proof (C38_stream E h s c a k id l1 l2 H Hn L St Ph Cl K) as X.
  rewrite (reach_nets E h s a H), Nt, look_gots in X.
  rewrite app_assoc, (C25_exactly_once_in_order T decode permits hc cs On Re), Ar, <- X.
  rewrite stream_messages, messages_app, !map_app, !stream_app, <- !app_assoc. reflexivity.
Qed.
Print Assumptions C59_consumer_stack.

(** * C60 *)
Definition unwrote (x : obs) : bool := match x with OWrite _ _ _ _ => false | _ => true end.
Lemma unwrote_nil a c : forallb unwrote c = true -> written a c = [].
Proof. induction c as [|x c IH]; auto. cbn [forallb]. intros H. apply andb_prop in H as [H1 H2]. unfold written in *. cbn [flat_map]. rewrite (IH H2). destruct x; try reflexivity. discriminate. Qed.
Lemma unwrote_cancel ns : forallb unwrote (cancel_all ns) = true.
Proof. induction ns; auto. Qed.
Lemma unwrote_ends hs f : forallb unwrote (ends_log hs f) = true.
Proof. apply forallb_forall. intros x Hx. apply ends_log_cancel in Hx as [n ->]. reflexivity. Qed.
Lemma unwrote_stop s : forallb unwrote (stop_log s) = true.
Proof. unfold stop_log. rewrite forallb_app. cbn. now rewrite unwrote_cancel, unwrote_ends. Qed.
Lemma fwd_unwrote s id n o s' : fwd s id n o s' -> exists c, s_log s' = s_log s ++ c /\ forallb unwrote c = true.
Proof. intros F. destruct F; [eexists; split; reflexivity|]. exists (stop_log s). split; [apply stop_log_eq|apply unwrote_stop]. Qed.
Lemma sent_unwrote s a ser i s' : sent s a ser i s' -> exists c, s_log s' = s_log s ++ c /\ forallb unwrote c = true.
Proof. intros S. destruct S; [eexists; split; reflexivity|]. exists []. split; [symmetry; apply app_nil_r|reflexivity]. Qed.
(** What a step writes. *)
Lemma trans_unwrote E s e s' : trans E s e s' -> (forall b now io, e <> EvWrite b now io) -> exists c, s_log s' = s_log s ++ c /\ forallb unwrote c = true.
Proof.
  intros T NW.
  assert (Z : forall t c, s' = stop t -> s_log t = s_log s ++ c -> forallb unwrote c = true -> exists c, s_log s' = s_log s ++ c /\ forallb unwrote c = true).
  { intros t c -> Y U. exists (c ++ stop_log t). split; [rewrite stop_log_eq, Y, <- app_assoc; reflexivity|]. rewrite forallb_app, U. apply unwrote_stop. }
  assert (D : forall t c, s_log t = s_log s ++ c -> forallb unwrote c = true -> (exists d, s_log s' = s_log t ++ d /\ forallb unwrote d = true) -> exists c, s_log s' = s_log s ++ c /\ forallb unwrote c = true).
  { intros t c Y U (d & Y' & U'). exists (c ++ d). split; [rewrite Y', Y, <- app_assoc; reflexivity|]. rewrite forallb_app, U. exact U'. }
  destruct T; try (exfalso; eapply NW; reflexivity);
    try (exists []; split; [symmetry; apply app_nil_r|reflexivity]);
    try (eexists; split; [reflexivity|first [reflexivity|apply unwrote_ends]]; fail);
    try (eapply Z; [reflexivity|reflexivity|reflexivity]; fail);
    try (apply (Z s []); [reflexivity|symmetry; apply app_nil_r|reflexivity]).
  - eexists. split; [reflexivity|]. destruct (ch_engine (s_ch s h)); [reflexivity|apply unwrote_cancel].
  - refine (D _ _ _ _ (fwd_unwrote _ _ _ _ _ H5)); [apply taken_log|]. cbn. apply unwrote_cancel.
  - eexists. split; [apply taken_log|]. cbn. apply unwrote_cancel.
  - eexists. split; [apply taken_log|]. cbn. apply unwrote_cancel.
  - refine (D _ _ _ _ (fwd_unwrote _ _ _ _ _ H6)); [rewrite moved_log; apply taken_log|]. cbn. apply unwrote_cancel.
  - refine (D _ _ _ _ (fwd_unwrote _ _ _ _ _ H1)); [rewrite moved_log; reflexivity|reflexivity].
  - refine (D _ _ _ _ (fwd_unwrote _ _ _ _ _ H0)); [rewrite moved_log; reflexivity|reflexivity].
  - refine (D _ _ _ _ (sent_unwrote _ _ _ _ _ H0)); reflexivity.
  - refine (D _ _ _ _ (sent_unwrote _ _ _ _ _ H4)); reflexivity.
Qed.
Lemma request_frame oc now o : sendable_request o -> now < 2 ^ 64 -> exists mc b, to_cmd now o = Ok mc /\ encode oc mc = Ok b /\ sendable mc /\ denotes now o mc.
Proof.
  intros (H1 & H3 & H4) H2. destruct (to_cmd_ok now o H1 H2 H3 H4) as (mc & E & D & K1 & K2 & K3).
  destruct (cmd_fits mc K1 K2 K3) as (F1 & F2 & F3). destruct (C01_encode_succeeds oc mc F1 F2 F3) as [b Hb].
  exists mc, b. auto using fits_sendable.
Qed.
Lemma offers_app E a io h1 : forall i s s1 h2, run E s h1 = Some s1 -> offers E a io i s (h1 ++ h2) = offers E a io i s h1 ++ offers E a io (i + length h1) s1 h2.
Proof.
  induction h1 as [|e r IH]; intros i s s1 h2 H.
  - injection H as <-. cbn. now rewrite Nat.add_0_r.
  - cbn [run] in H. cbn [app offers length]. destruct (step E s e) as [s2|]; [|discriminate]. rewrite (IH (S i) s2 s1 h2 H), app_assoc. cbn [Nat.add]. now rewrite Nat.add_succ_r.
Qed.
(** The commands offered are those the connection took for writing, each as its frame. *)
Lemma offers_frames E a io h : forall s, reach E h s -> clock_fits a h -> (forall n o, In (n, o) (queued a (s_log s)) -> sendable_request o) ->
  exists mcs, Forall sendable mcs /\ Forall2 (fun mc x => encode (e_oc E) mc = Ok (of_frame x)) mcs (offers E a io 0 sys_init h) /\
    map of_cmd (offers E a io 0 sys_init h) = written a (s_log s) /\ Forall2 request_of (written a (s_log s)) mcs.
Proof.
  induction h as [|e h IH] using rev_ind; intros s H Ws Q.
  - injection H as <-. exists []. repeat split; constructor.
  - unfold reach in H. rewrite run_app in H. destruct (run E sys_init h) as [s1|] eqn:R; [|discriminate]. cbn [run] in H.
    destruct (step E s1 e) as [s2|] eqn:ST; [|discriminate]. injection H as ->.
    pose proof (step_trans E s1 e s (reach_wf E h s1 R) ST) as T. destruct (trans_log E s1 e s T) as (l & Hl & _).
    destruct (IH s1 R) as (mcs & F1 & F2 & F3 & F4).
    { intros now ok Hin. apply (Ws now ok). apply in_app_iff. now left. }
    { intros n o Hin. apply (Q n o). rewrite Hl, queued_app. apply in_app_iff. now left. }
    rewrite (offers_app E a io h _ _ _ _ R). cbn [offers]. rewrite ST, app_nil_r. clear Hl l.
    set (old := offers E a io 0 sys_init h) in *. set (new := match next_offer E a s1 e with Some _ => _ | None => _ end).
    assert (N : next_offer E a s1 e = None -> (exists c, s_log s = s_log s1 ++ c /\ written a c = []) -> exists mcs', Forall sendable mcs' /\
       Forall2 (fun mc x => encode (e_oc E) mc = Ok (of_frame x)) mcs' (old ++ new) /\ map of_cmd (old ++ new) = written a (s_log s) /\ Forall2 request_of (written a (s_log s)) mcs').
    { intros X (c & Y & Z). exists mcs. subst new. rewrite X, app_nil_r, Y, written_app, Z, app_nil_r. auto. }
    destruct (match e with EvWrite b _ _ => baddr_eqb b a | _ => false end) eqn:We.
    + destruct e as [| | | | | | | | | | | | | | |b now io0|]; try discriminate. apply baddr_eqb_spec in We. subst b.
      assert (Hn : now < 2 ^ 64) by (apply (Ws now io0); apply in_app_iff; right; now left).
      inversion T as [ | | | | | | | | | | | | | | | | | | | | | | | | | | | | | | | | | | |a0 now0 io1 k x q K A Kq Ne|a0 now0 io1 k x q K A Kq Ne|a0 now0 io1 k K A Kq Ph| | | | | | ]; subst.
      * assert (Sx : sendable_request (ci_out x)).
        { apply (Q (ci_src x)). pj. rewrite queued_app. apply in_app_iff. left. destruct (unwritten_items E h s1 a k R K A) as [X _]. rewrite X. apply in_app_iff. right.
          rewrite Kq. now left. }
        destruct (request_frame (e_oc E) now _ Sx Hn) as (mc & b & T1 & T2 & T3 & T4).
        assert (X : next_offer E a s1 (EvWrite a now io0) = Some (ci_src x, ci_out x, b)).
        { cbn [next_offer]. rewrite baddr_eqb_refl, K, Kq, T1. cbn [obind]. now rewrite T2. }
        exists (mcs ++ [mc]). subst new. rewrite X. split; [apply Forall_app; auto|]. split; [apply Forall2_app; auto|].
        pj. rewrite written_app.
        match goal with |- context [written a [?z]] => assert (Wz : written a [z] = [(ci_src x, ci_out x)]) by (unfold written; cbn [flat_map]; rewrite baddr_eqb_refl; reflexivity); rewrite Wz end.
        split; [rewrite map_app, F3; reflexivity|]. apply Forall2_app; auto. constructor; [|constructor]. exists now. auto.
      * exfalso. assert (Sx : sendable_request (ci_out x)).
        { apply (Q (ci_src x)). pj. destruct (unwritten_items E h s1 a k R K A) as [X _]. rewrite X. apply in_app_iff. right. rewrite Kq. now left. }
        destruct (request_frame (e_oc E) now _ Sx Hn) as (mc & b & T1 & T2 & _). unfold encodes in Ne. rewrite T1 in Ne. cbn [obind] in Ne. congruence.
      * apply N; [cbn [next_offer]; now rewrite baddr_eqb_refl, K, Kq|]. exists []. now rewrite app_nil_r.
    + apply N.
      * destruct e; try reflexivity. cbn [next_offer]. now rewrite We.
      * destruct e as [| | | | | | | | | | | | | | |b now io0|]; try (destruct (trans_unwrote _ _ _ _ T) as (c & L & U); [discriminate|exists c; split; [exact L|now apply unwrote_nil]]).
        inversion T as [ | | | | | | | | | | | | | | | | | | | | | | | | | | | | | | | | | | |a0 now0 io1 k x q K A Kq Ne|a0 now0 io1 k x q K A Kq Ne|a0 now0 io1 k K A Kq Ph| | | | | | ]; subst; eexists; pj.
        -- split; [reflexivity|]. unfold written. cbn [flat_map]. now rewrite We.
        -- split; [symmetry; apply app_nil_r|reflexivity].
        -- split; [symmetry; apply app_nil_r|reflexivity].
Qed.
(** Frames read from an initial part of their bytes. *)
Lemma framed_initial r1 : forall buf r2 c, initial (framed buf r1 false) (framed buf (r1 ++ r2) c).
Proof.
  induction r1 as [|r r1 IH]; intros buf r2 c; [eexists; reflexivity|]. cbn [framed app].
  destruct (drain_all (buf ++ r)) as [ms [b|]].
  - destruct (IH b r2 c) as [rest X]. exists rest. now rewrite X, app_assoc.
  - exists []. now rewrite app_nil_r.
Qed.
Lemma all_frames oc mcs frames reads : Forall sendable mcs -> Forall2 (fun mc b => encode oc mc = Ok b) mcs frames -> concat reads = concat frames ->
  stream_items reads false = map IFrame mcs.
Proof.
  intros F1 F2 C. pose proof (C02_stream_reassembly oc mcs frames reads (length frames) [] F1 F2 (Nat.le_refl _)) as X.
  rewrite firstn_all, app_nil_r in X. specialize (X C (or_introl eq_refl)). rewrite X. f_equal.
  rewrite <- (firstn_all mcs) at 2. f_equal. clear - F2. induction F2; cbn; auto.
Qed.
Lemma initial_map {A B} (f : A -> B) l m : initial l (map f m) -> exists l', l = map f l' /\ initial l' m.
Proof.
  revert m. induction l as [|x l IH]; intros m [r H]; [exists []; split; [reflexivity|now exists m]|]. destruct m as [|y m]; [discriminate|]. cbn in H. injection H as H1 H2.
  destruct (IH m) as (l' & -> & r' & ->); [now exists r|]. exists (y :: l'). split; [cbn; now rewrite H1|now exists r'].
Qed.
Lemma some_frames oc mcs frames reads : Forall sendable mcs -> Forall2 (fun mc b => encode oc mc = Ok b) mcs frames -> initial (concat reads) (concat frames) ->
  exists got, stream_items reads false = map IFrame got /\ initial got mcs.
Proof.
  intros F1 F2 [rest C]. apply initial_map. rewrite <- (all_frames oc mcs frames (reads ++ [rest]) F1 F2).
  - apply framed_initial.
  - rewrite concat_app, C. cbn. now rewrite app_nil_r.
Qed.
Lemma Forall2_map_r {A B C} (R : A -> C -> Prop) (f : B -> C) l m : Forall2 (fun a b => R a (f b)) l m -> Forall2 R l (map f m).
Proof. induction 1; cbn; constructor; auto. Qed.
Lemma Forall2_pick {A B C} (R : A -> B -> Prop) (S : C -> A -> Prop) (p : B -> bool) l m : Forall2 R l m -> forall cs, Forall2 S cs l ->
  exists l' cs', Forall2 R l' (filter p m) /\ Forall2 S cs' l' /\ (forall x, In x l' -> In x l) /\
    forall g : B -> C, map g m = cs -> cs' = map g (filter p m).
Proof.
  induction 1 as [|x y l m H F IH]; intros cs G; inversion G as [|c ? cs0 ? G1 G2]; subst.
  - exists [], []. split; [constructor|]. split; [constructor|]. split; [intros z []|]. intros g _. reflexivity.
  - destruct (IH cs0 G2) as (l' & cs' & I1 & I2 & I3 & I4). cbn [filter]. destruct (p y).
    + exists (x :: l'), (c :: cs'). repeat split; [now constructor|now constructor|intros z [<-|Z]; [now left|right; auto]|].
      intros g E. cbn [map] in *. injection E as E1 E2. rewrite E1. f_equal. now apply I4.
    + exists l', cs'. repeat split; auto; [intros z Z; right; auto|]. intros g E. cbn [map] in E. injection E as E1 E2. now apply I4.
Qed.
(** The stream's own view of a schedule: what is tried is what the connection took for
    writing, what is read is a beginning of what was taken, each command as a frame. *)
Lemma attempts_frames E a io h s : reach E h s -> clock_fits a h -> (forall n o, In (n, o) (queued a (s_log s)) -> sendable_request o) ->
  map at_cmd (attempts E a io h) = written a (s_log s) /\
  exists mcs, Forall sendable mcs /\ Forall2 (fun mc x => encode (e_oc E) mc = Ok (at_frame x)) mcs (attempts E a io h) /\ Forall2 request_of (written a (s_log s)) mcs.
Proof.
  intros H C Q. destruct (offers_frames E a io h s H C Q) as (mcs & F1 & F2 & F3 & F4). unfold attempts. rewrite send_all_cmds. split; [exact F3|].
  exists mcs. split; [exact F1|]. split; [|exact F4]. clear - F2. apply (Forall2_map_r (fun mc b => encode (e_oc E) mc = Ok b) of_frame) in F2. rewrite <- (send_all_frames _ sink_init) in F2.
  revert F2. generalize (send_all sink_init (offers E a io 0 sys_init h)). clear. intros w. revert mcs. induction w as [|x w IH]; intros mcs F; inversion F; subst; constructor; auto.
Qed.
(** If the commands queued for connection [a] are sendable and its writes succeed,
    then a broker reading its bytes, cut by the network in any way, decodes exactly
    the commands the connection has taken for writing, in order. *)
Theorem C60_wire_bytes : forall E h s a io reads, reach E h s -> writes_succeed E a io h ->
  (forall n o, In (n, o) (queued a (s_log s)) -> sendable_request o) -> concat reads = wire E a io h ->
  exists mcs, stream_items reads false = map IFrame mcs /\ Forall2 request_of (written a (s_log s)) mcs.
Proof.
  intros E h s a io reads H [Ok_ Ck] Q C. destruct (offers_frames E a io h s H Ck Q) as (mcs & F1 & F2 & F3 & F4).
  exists mcs. split; [|exact F4]. apply (all_frames (e_oc E) mcs (map of_frame (offers E a io 0 sys_init h))); [exact F1|now apply (Forall2_map_r (fun mc b => encode (e_oc E) mc = Ok b) of_frame)|].
  rewrite C. apply (all_ok_sent _ Ok_).
Qed.
Print Assumptions C60_wire_bytes.

(** ** The sends of one client *)
Definition is_send_out (o : outbound) : bool := match o with OSend _ => true | _ => false end.
Definition issues (c : nat) (l : list obs) : list (nat * outbound) :=
  flat_map (fun x => match x with OIssue c' n o => if (c' =? c)%nat then [(n, o)] else [] | _ => [] end) l.
Lemma issues_fst c l : map fst (issues c l) = issued c l.
Proof. induction l as [|x l IH]; [reflexivity|]. unfold issues, issued in *. cbn [flat_map]. rewrite map_app, IH. f_equal. destruct x; try reflexivity. now destruct (h =? c)%nat. Qed.
Lemma issues_snd c l : map snd (issues c l) = requests c l.
Proof. induction l as [|x l IH]; [reflexivity|]. unfold issues, requests in *. cbn [flat_map]. rewrite map_app, IH. f_equal. destruct x; try reflexivity. now destruct (h =? c)%nat. Qed.
Lemma issues_in c l n o : In (n, o) (issues c l) <-> In (OIssue c n o) l.
Proof.
  unfold issues. rewrite in_flat_map. split.
  - intros (x & X & Y). destruct x; try destruct Y. destruct (h =? c)%nat eqn:Z; [|destruct Y]. apply Nat.eqb_eq in Z. subst. destruct Y as [[= <- <-]|[]]. exact X.
  - intros X. eexists. split; [exact X|]. cbn. rewrite Nat.eqb_refl. now left.
Qed.
(** The send request [n] is, if it is one. *)
Definition send_of (l : list (nat * outbound)) (n : nat) : list outbound :=
  match find (fun x : nat * outbound => (fst x =? n)%nat) l with Some (_, OSend p) => [OSend p] | _ => [] end.
Lemma find_issue (l : list (nat * outbound)) n o : NoDup (map fst l) -> In (n, o) l -> find (fun x : nat * outbound => (fst x =? n)%nat) l = Some (n, o).
Proof.
  induction l as [|[m q] l IH]; [intros _ []|]. cbn [map fst find]. intros N. inversion N as [|? ? N1 N2]; subst. intros [[= -> ->]|H]; [now rewrite Nat.eqb_refl|].
  destruct (m =? n)%nat eqn:X; [|auto]. apply Nat.eqb_eq in X. subst. exfalso. apply N1. change n with (fst (n, o)). now apply in_map.
Qed.
Lemma send_of_all l : NoDup (map fst l) -> flat_map (send_of l) (map fst l) = filter is_send_out (map snd l).
Proof.
  intros N. assert (X : forall m, (forall x, In x m -> In x l) -> flat_map (send_of l) (map fst m) = filter is_send_out (map snd m)).
  { induction m as [|[n o] m IH]; [reflexivity|]. intros S. cbn [map flat_map filter fst snd]. rewrite IH by (intros; apply S; now right).
    unfold send_of at 1. rewrite (find_issue l n o N) by (apply S; now left). destruct o; reflexivity. }
  now apply X.
Qed.
Lemma initial_flat {A B} (f : A -> list B) l m : initial l m -> initial (flat_map f l) (flat_map f m).
Proof. intros [r ->]. rewrite flat_map_app. now exists (flat_map f r). Qed.
Lemma initial_trans {A} (l m n : list A) : initial l m -> initial m n -> initial l n.
Proof. intros [a ->] [b ->]. exists (a ++ b). now rewrite app_assoc. Qed.
Lemma issued_nodup E h s c : reach E h s -> NoDup (issued c (s_log s)).
Proof.
  intros H. destruct (reach_queues E h s H) as [Q _]. pose proof (v_r E s (reach_all E h s H)) as R. rewrite (q_up s Q c). apply NoDup_app_intro.
  - apply NoDup_filter, (r_tknd s R).
  - apply (r_upnd s R).
  - intros n X Y. apply filter_In in X as [X _]. apply in_map_iff in Y as ([m o] & Y1 & Y2). cbn in Y1. subst m. now destruct (r_up s R c n o Y2) as (_ & Z & _).
Qed.
Lemma written_sends E h s c a : reach E h s ->
  sends_written c a (s_log s) = flat_map (send_of (issues c (s_log s))) (wrote_for c a (s_log s)).
Proof.
  intros H. pose proof (reach_all E h s H) as V. set (L := s_log s).
  assert (ND : NoDup (map fst (issues c L))) by (rewrite issues_fst; apply issued_nodup with E h; exact H).
  assert (W : forall n o ok, In (OWrite a (Some n) o ok) L -> In n (issued c L) -> send_of (issues c L) n = match o with OSend p => [OSend p] | _ => [] end).
  { intros n o ok X Y. destruct (C39_commands_unchanged E h s a n o ok H X) as (q & (c' & Hq) & Q). fold L in Hq.
    assert (Z : In (n, q) (issues c L)).
    { rewrite <- issues_fst in Y. apply in_map_iff in Y as ([m q'] & Y1 & Y2). cbn in Y1. subst m. apply issues_in in Y2 as Y3.
      destruct (r_uniq s (v_r E s V) c' n q c q' Hq Y3) as [_ ->]. exact Y2. }
    unfold send_of. rewrite (find_issue _ n q ND Z). destruct q; try (subst o; reflexivity). destruct Q as (d & m & ->). reflexivity. }
  unfold sends_written, wrote_for, wrote. fold L.
  assert (G : forall l, (forall x, In x l -> In x L) ->
    flat_map (fun x => match x with OWrite b (Some n) (OSend p) _ => if baddr_eqb b a && in_nat n (issued c L) then [OSend p] else [] | _ => [] end) l =
    flat_map (send_of (issues c L)) (filter (fun n => in_nat n (issued c L)) (flat_map (fun x => match x with OWrite b (Some n) _ _ => if baddr_eqb b a then [n] else [] | _ => [] end) l))).
  { induction l as [|x l IH]; [reflexivity|]. intros S. cbn [flat_map]. rewrite IH by (intros; apply S; now right). rewrite filter_app, flat_map_app. f_equal.
    specialize (S x (or_introl eq_refl)). destruct x; try reflexivity. destruct src as [n|]; [|reflexivity].
    destruct (baddr_eqb a0 a) eqn:B; [|destruct o; reflexivity]. apply baddr_eqb_spec in B. subst a0. cbn [filter andb].
    destruct (in_nat n (issued c L)) eqn:I; [|destruct o; reflexivity]. apply is_in_spec in I. cbn [flat_map]. rewrite (W n o ok S I), app_nil_r. destruct o; reflexivity. }
  now apply G.
Qed.
(** The sends of [c] that go to connection [a] are, in order, an initial part of
    the sends it issued. *)
Lemma sends_prefix E h s c a : reach E h s ->
  (forall n b p, In (OForward n b (OSend p)) (s_log s) -> In n (issued c (s_log s)) -> b = a) ->
  initial (sends_written c a (s_log s)) (filter is_send_out (requests c (s_log s))).
Proof.
  intros H One. rewrite (written_sends E h s c a H). pose proof (reach_all E h s H) as V. destruct (reach_queues E h s H) as [Q (rest & T & _)].
  pose proof (issued_nodup E h s c H) as ND. rewrite <- issues_fst in ND.
  rewrite <- issues_snd, <- (send_of_all _ ND), issues_fst.
  set (G := flat_map (send_of (issues c (s_log s)))). set (mine := filter (fun n => in_nat n (issued c (s_log s)))).
  assert (Sw : initial (wrote a (s_log s)) (sent_to a (s_log s))).
  { rewrite <- srcs_queued, <- srcs_written. destruct (get_conn a (s_conns s)) as [k|] eqn:K.
    - destruct (q_out s Q a k K) as (lost & X & _). rewrite X, srcs_app. eexists. reflexivity.
    - destruct (q_none s Q a K) as (-> & -> & _). exists []. reflexivity. }
  assert (W : forall n b o, In (OForward n b o) (s_log s) -> In n (issued c (s_log s)) -> b <> a -> send_of (issues c (s_log s)) n = []).
  { intros n b o X Y Z. destruct (c_fw E s (v_c E s V) n b o X) as (_ & q & (c' & Q1) & Q2).
    assert (Zi : In (n, q) (issues c (s_log s))).
    { rewrite <- issues_fst in Y. apply in_map_iff in Y as ([m q'] & Y1 & Y2). cbn in Y1. subst m. apply issues_in in Y2 as Y3.
      destruct (r_uniq s (v_r E s V) c' n q c q' Q1 Y3) as [_ ->]. exact Y2. }
    unfold send_of. rewrite (find_issue _ n q ND Zi). destruct q; auto. unfold formed in Q2. subst o. exfalso. apply Z. eapply One; eauto. }
  assert (Ef : G (mine (sent_to a (s_log s))) = G (mine (forwarded (s_log s)))).
  { assert (X : forall l, (forall x, In x l -> In x (s_log s)) -> G (mine (sent_to a l)) = G (mine (forwarded l))).
    { induction l as [|x l IH]; [reflexivity|]. intros Sb. specialize (IH (fun y Hy => Sb y (or_intror Hy))). specialize (Sb x (or_introl eq_refl)).
      destruct x; try exact IH. change (forwarded (OForward n a0 o :: l)) with ([n] ++ forwarded l).
      change (sent_to a (OForward n a0 o :: l)) with ((if baddr_eqb a0 a then [n] else []) ++ sent_to a l).
      unfold mine, G in *. rewrite !filter_app, !flat_map_app, IH. f_equal. destruct (baddr_eqb a0 a) eqn:B; [reflexivity|]. apply baddr_eqb_neq in B.
      cbn [filter]. destruct (in_nat n (issued c (s_log s))) eqn:M; [|reflexivity]. apply is_in_spec in M. cbn [flat_map]. rewrite (W n a0 o Sb M B). reflexivity. }
    apply X. auto. }
  apply initial_trans with (G (mine (sent_to a (s_log s)))).
  - unfold G, wrote_for. apply initial_flat. fold mine. destruct Sw as [r ->]. unfold mine. rewrite filter_app. now eexists.
  - rewrite Ef. unfold G. apply initial_flat. rewrite (q_up s Q c) at 1. fold mine. rewrite T. unfold mine at 2. rewrite filter_app. fold mine. rewrite <- app_assoc. now eexists.
Qed.
(** ** The calls of one client *)
Lemma same_order {A B} (f : A -> B) (l : list A) : forall m, NoDup (map f m) -> incl l m -> initial (map f l) (map f m) -> initial l m.
Proof.
  induction l as [|x l IH]; intros m N I [r R]; [now exists m|]. destruct m as [|y m]; [discriminate|]. cbn [map app] in R. injection R as R1 R2.
  inversion N as [|? ? N1 N2]; subst.
  assert (Ex : x = y).
  { destruct (I x (or_introl eq_refl)) as [<-|X]; auto. exfalso. apply N1. rewrite R1. now apply in_map. }
  subst y. destruct (IH m N2) as [r' Hr]; [|exists r; exact R2|exists r'; now rewrite Hr].
  intros z Hz. destruct (I z (or_intror Hz)) as [<-|X]; auto. exfalso. apply N1. rewrite R2. apply in_app_iff. left. now apply in_map.
Qed.
Lemma numbers_sends l : map sequence_number (filter is_send_out l) = map Some (numbers sequence_number l).
Proof. induction l as [|o l IH]; [reflexivity|]. unfold numbers in *. cbn [flat_map filter]. rewrite map_app, <- IH. destruct o as [| | |[] | | | | | |]; reflexivity. Qed.
Definition call_sends (cs : list call) : N := N.of_nat (length (filter is_send cs)).
Lemma sent_as_app id name cs ds : forall i, sent_as id name i (cs ++ ds) = sent_as id name i cs ++ sent_as id name (i + call_sends cs) ds.
Proof.
  induction cs as [|c cs IH]; intros i; [unfold call_sends; cbn; now rewrite N.add_0_r|]. unfold call_sends in *.
  destruct c; cbn [app sent_as filter is_send length]; rewrite IH; try reflexivity; cbn [app]; do 3 f_equal; rewrite Nat2N.inj_succ; lia.
Qed.
Lemma built_as id name h : forall s, cl_run id name client_init h = Some s -> call_sends (calls h) <= two64 ->
  filter is_send_out (cl_built s) = sent_as id name 0 (calls h) /\ sequence_id (cl_cnt s) = call_sends (calls h) mod two64.
Proof.
  induction h as [|e h IH] using rev_ind; intros s H B; [injection H as <-; split; reflexivity|].
  assert (R : exists s1, cl_run id name client_init h = Some s1 /\ cl_step id name s1 e = Some s).
  { revert H. generalize client_init. clear. induction h as [|x h IH]; intros s0; cbn.
    - destruct (cl_step id name s0 e) eqn:X; [|discriminate]. intros [= <-]. eauto.
    - destruct (cl_step id name s0 x); [|discriminate]. apply IH. }
  destruct R as (s1 & R & T). unfold calls in B |- *. rewrite flat_map_app in B |- *. fold (calls h) in *. 
  assert (Bd : call_sends (calls h) <= two64) by (revert B; unfold call_sends; rewrite filter_app, app_length; lia).
  destruct (IH s1 R Bd) as [F Q]. destruct e as [t c|t]; cbn [cl_step] in T; destruct (take_hand t (cl_hand s1)) as [[o hd]|]; try discriminate.
  - cbn [flat_map app] in *. rewrite sent_as_app, <- F, N.add_0_l. revert B. unfold call_sends. rewrite filter_app, app_length. fold (call_sends (calls h)). intros B.
    destruct s1 as [[rq sq] bl qu hd]. cbn [cl_cnt cl_built sequence_id] in *.
    destruct c; injection T as <-; cbn [cl_cnt cl_built sequence_id request_id]; rewrite filter_app; cbn [filter is_send length is_send_out sent_as] in *;
      rewrite ?Nat.add_0_r, ?app_nil_r; auto.
    all: rewrite Nat2N.inj_add in *; fold (call_sends (calls h)) in *; change (N.of_nat 1) with 1 in *; split.
    all: try (rewrite Q, N.mod_small by lia; reflexivity).
    all: unfold bump; rewrite Q, N.add_mod_idemp_l by discriminate; reflexivity.
  - cbn [flat_map] in *. rewrite app_nil_r. injection T as <-. auto.
Qed.
Lemma queued_as id name h s : cl_run id name client_init h = Some s -> sends_in_turn None h -> call_sends (calls h) <= two64 ->
  initial (filter is_send_out (cl_queue s)) (sent_as id name 0 (calls h)).
Proof.
  intros H St B. destruct (built_as id name h s H B) as [F _]. rewrite <- F.
  assert (Ln : N.of_nat (length (numbers sequence_number (cl_built s))) <= two64).
  { rewrite <- (map_length Some), <- numbers_sends, map_length, F. revert B. generalize 0. unfold call_sends. generalize (calls h). clear. intros l.
    assert (X : forall i, length (sent_as id name i l) = length (filter is_send l)) by (induction l as [|[] l IH]; intros; cbn [sent_as filter is_send length]; auto). intros. now rewrite X. }
  apply (same_order sequence_number).
  - rewrite numbers_sends. apply FinFun.Injective_map_NoDup; [intros ? ? [=]; auto|]. now apply (C18_sequence_numbers _ _ _ _ H).
  - intros o Ho. apply filter_In in Ho as [Ho Hs]. apply filter_In. split; auto.
    destruct (cl_run_inv _ _ _ _ _ H cl_init_inv) as (_ & _ & P). apply (Permutation.Permutation_in _ (Permutation.Permutation_sym P)). apply in_app_iff. now left.
  - rewrite !numbers_sends. pose proof (in_turn _ _ _ None _ _ St H) as X. unfold sn in X. rewrite X; [rewrite map_app; now eexists|split; [constructor|reflexivity]|reflexivity].
Qed.

(** Client [c] makes the calls [hc], its sends in turn; what it puts into the engine
    channel is what the engine model sees as its requests; all its sends go to
    connection [a]. Then the sends the connection has taken for writing are, in
    order and unchanged, an initial part of the calls of send, the i-th one
    carrying the number i. *)
Theorem C60_producer_stack : forall E h s c a id name hc cl,
  cl_run id name client_init hc = Some cl -> sends_in_turn None hc -> N.of_nat (length (filter is_send (calls hc))) <= 2 ^ 64 ->
  reach E h s -> requests c (s_log s) = cl_queue cl ->
  (forall n b p, In (OForward n b (OSend p)) (s_log s) -> In n (issued c (s_log s)) -> b = a) ->
  initial (sends_written c a (s_log s)) (sent_as id name 0 (calls hc)).
Proof.
  intros E h s c a id name hc cl R St B H Rq One. apply initial_trans with (filter is_send_out (requests c (s_log s))); [exact (sends_prefix E h s c a H One)|].
  rewrite Rq. now apply queued_as.
Qed.
Print Assumptions C60_producer_stack.

(** For a client used since its registration on a connection that had then
    delivered nothing: the calls of next_message return, in order and each once, an
    initial part of the messages the broker has sent to that consumer id. *)
Theorem C59_from_registration : forall T (decode : bytes -> option T) oc E h s c id a k permits hc cs l1 l2 mcs frames reads n part,
  Forall sendable mcs -> Forall2 (fun mc b => encode oc mc = Ok b) mcs frames -> (n <= length frames)%nat ->
  concat reads = concat (firstn n frames) ++ part ->
  (part = [] \/ exists more, more <> [] /\ nth_error frames n = Some (part ++ more)) ->
  reach E h s -> newids h <= 2 ^ 64 -> nets a h = stream_items reads false ->
  s_log s = l1 ++ OReg c id :: l2 -> a = broker_address (e_cfg E) -> handles a l1 = [] ->
  stays (broker_address (e_cfg E)) c a id (l1 ++ [OReg c id]) (s_log s) -> s_phase s <> PStop ->
  ch_client (s_ch s c) = true -> get_conn a (s_conns s) = Some k ->
  only_next_message hc -> reaches decode permits hc cs -> SpecConsumer.arrivals hc = gots c (s_log s) ++ ch_down (s_ch s c) ->
  initial (returned (c_log cs)) (stream decode (map InMessage (messages_for id (events (map IFrame (firstn n mcs)))))).
Proof.
  intros T decode oc E h s c id a k permits hc cs l1 l2 mcs frames reads n part F F2 Ln Cr Pa H Hn Nt L Ea Hd St Ph Cl K On Re Ar.
  assert (L' : s_log s = (l1 ++ [OReg c id]) ++ l2) by (rewrite L, <- app_assoc; reflexivity).
  pose proof (C59_consumer_stack T decode oc E h s c id a k permits hc cs _ l2 mcs frames reads n part F F2 Ln Cr Pa H Hn Nt L' St Ph Cl K On Re Ar) as X.
  rewrite (C38_starts_empty E h s l1 c id l2 H Hn L) in X. cbn [v_inbox app] in X.
  assert (Z : handles a (l1 ++ [OReg c id]) = []) by (rewrite handles_app, Hd; reflexivity). rewrite Z in X. cbn [length skipn] in X.
  eexists. symmetry. exact X.
Qed.
Print Assumptions C59_from_registration.

(** The hypotheses are met: two clients, five messages (three for the first client),
    a sixth frame of which three bytes have arrived, the bytes cut in an odd way. *)
Lemma stays_check sv c a id l k : (k <= length l)%nat ->
  forallb (fun j => let v := look sv c (firstn (k + j) l) in same_home (v_home v) a && same_id (v_id v) id) (seq 0 (S (length l - k))) = true ->
  stays sv c a id (firstn k l) l.
Proof.
  intros Hk H l' [r ->] [q Q]. rewrite forallb_forall in H. specialize (H (length r)).
  assert (X : firstn (k + length r) l = firstn k l ++ r).
  { rewrite Q at 1. rewrite firstn_app, app_length, firstn_length, Nat.min_l, Nat.sub_diag, app_nil_r by lia. apply firstn_all2. rewrite app_length, firstn_length. lia. }
  rewrite X in H. cbn zeta in H. assert (Y : In (length r) (seq 0 (S (length l - k)))).
  { apply in_seq. apply (f_equal (@length obs)) in Q. rewrite !app_length, firstn_length in Q. lia. }
  apply andb_prop in H as [H1 H2]; auto. split.
  - destruct (v_home (look sv c (firstn k l ++ r))) as [b|]; [|discriminate]. cbn in H1. apply baddr_eqb_spec in H1. now subst.
  - destruct (v_id (look sv c (firstn k l ++ r))) as [b|]; [|discriminate]. cbn in H2. apply N.eqb_eq in H2. now subst.
Qed.
Definition f_conn1 : item := fr 3 [(1, PBytes (str "v"))].
Definition y_msgs : list event := x_reg2 ++
  [EvIssue 0%nat (OConnect (mk_connect None None None)); EvClient 0%nat; EvWrite xA 0 true; EvNet xA f_conn1; EvAnswered;
   EvNet xA (f_msg 0 1 (str "a")); EvNet xA (f_msg 1 2 (str "b")); EvNet xA (f_msg 0 3 (str "c")); EvNet xA (f_msg 1 4 (str "d")); EvNet xA (f_msg 0 5 (str "e"));
   EvConn xA; EvConn xA; EvConn xA; EvConn xA; EvRecv 0%nat; EvRecv 1%nat].
Definition y_mcs : list msg_cmd := flat_map (fun x => match x with IFrame mc => [mc] | _ => [] end)
  [f_conn1; f_msg 0 1 (str "a"); f_msg 1 2 (str "b"); f_msg 0 3 (str "c"); f_msg 1 4 (str "d"); f_msg 0 5 (str "e"); f_ping].
Definition y_frames : list bytes := map (fun mc => match encode true mc with Ok b => b | _ => [] end) y_mcs.
Definition y_reads : list bytes := let b := concat (firstn 6 y_frames) ++ firstn 3 (nth 6 y_frames []) in [firstn 1 b; firstn 40 (skipn 1 b); []; skipn 41 b].
Definition y_hc : list cev :=
  [Arrive (InMessage (DSingle 0 [(1, PInt 7); (2, PInt 1)] (str "a"))); Arrive (InMessage (DSingle 0 [(1, PInt 7); (2, PInt 3)] (str "c")));
   Start 0%nat NextMessage; Step 0%nat; Step 0%nat; Step 0%nat; Step 0%nat].
Example C59_meets : exists s k cs l2,
  Forall sendable y_mcs /\ Forall2 (fun mc b => encode true mc = Ok b) y_mcs y_frames /\ (6 <= length y_frames)%nat /\
  concat y_reads = concat (firstn 6 y_frames) ++ firstn 3 (nth 6 y_frames []) /\
  (exists more, more <> [] /\ nth_error y_frames 6 = Some (firstn 3 (nth 6 y_frames []) ++ more)) /\
  reach xE y_msgs s /\ newids y_msgs <= 2 ^ 64 /\ nets xA y_msgs = stream_items y_reads false /\
  s_log s = firstn 1 (s_log s) ++ OReg 0%nat 0 :: l2 /\ xA = broker_address (e_cfg xE) /\ handles xA (firstn 1 (s_log s)) = [] /\
  stays (broker_address (e_cfg xE)) 0%nat xA 0 (firstn 1 (s_log s) ++ [OReg 0%nat 0]) (s_log s) /\ s_phase s <> PStop /\
  ch_client (s_ch s 0%nat) = true /\ get_conn xA (s_conns s) = Some k /\
  only_next_message y_hc /\ reaches (fun b => Some b) 250 y_hc cs /\ SpecConsumer.arrivals y_hc = gots 0%nat (s_log s) ++ ch_down (s_ch s 0%nat) /\
  map cm_payload (returned (c_log cs)) = [str "a"].
Proof.
  destruct (run xE sys_init y_msgs) as [s|] eqn:R; [|vm_compute in R; discriminate].
  destruct (crun (fun b => Some b) (cons_init 250) y_hc) as [cs|] eqn:RC; [|vm_compute in RC; discriminate].
  destruct (get_conn xA (s_conns s)) as [k|] eqn:K; [|exfalso; vm_compute in R; injection R as <-; vm_compute in K; discriminate].
  exists s, k, cs, (skipn 2 (s_log s)).
  assert (O : only_next_message y_hc).
  { intros t q X. repeat (destruct X as [X|X]; [inversion X; reflexivity || discriminate|]). destruct X. }
  assert (C : map cm_payload (returned (c_log cs)) = [str "a"]).
  { vm_compute in RC. injection RC as <-. vm_compute. reflexivity. }
  assert (St : stays (broker_address (e_cfg xE)) 0%nat xA 0 (firstn 1 (s_log s) ++ [OReg 0%nat 0]) (s_log s)).
  { replace (firstn 1 (s_log s) ++ [OReg 0%nat 0]) with (firstn 2 (s_log s)) by (vm_compute in R; injection R as <-; vm_compute; reflexivity).
    apply stays_check; vm_compute in R; injection R as <-; vm_compute; [lia|reflexivity]. }
  assert (L : s_log s = firstn 1 (s_log s) ++ OReg 0%nat 0 :: skipn 2 (s_log s)) by (vm_compute in R; injection R as <-; vm_compute; reflexivity).
  assert (Hd : handles xA (firstn 1 (s_log s)) = []) by (vm_compute in R; injection R as <-; vm_compute; reflexivity).
  assert (Ph : s_phase s <> PStop) by (vm_compute in R; injection R as <-; vm_compute; discriminate).
  assert (Cl : ch_client (s_ch s 0%nat) = true) by (vm_compute in R; injection R as <-; vm_compute; reflexivity).
  assert (Ar : SpecConsumer.arrivals y_hc = gots 0%nat (s_log s) ++ ch_down (s_ch s 0%nat)) by (vm_compute in R; injection R as <-; vm_compute; reflexivity).
  repeat match goal with |- _ /\ _ => split end; auto.
  - let l := eval vm_compute in y_mcs in change y_mcs with l. repeat (apply Forall_cons; [split; vm_compute; reflexivity|]). constructor.
  - let l := eval vm_compute in y_mcs in let m := eval vm_compute in y_frames in change y_mcs with l; change y_frames with m.
    repeat (apply Forall2_cons; [vm_compute; reflexivity|]). constructor.
  - vm_compute. lia.
  - exists (skipn 3 (nth 6 y_frames [])). split; vm_compute; [discriminate|reflexivity].
  - vm_compute. discriminate.
Qed.
(** A producer client: two sends and an ack, the first send written, the second
    still queued for the connection; and the bytes on the wire. *)
Definition y_cl : list cl_ev :=
  [Build 0 CConnect; Enqueue 0; Build 0 (CSend (str "x")); Build 1 (CAck mid56); Enqueue 0; Build 0 (CSendBatch [str "y"; str "z"]); Enqueue 1; Enqueue 0; Build 2 (CSend (str "w"))]%nat.
Definition y_ops : list event := x_reg2 ++ x_connect 0%nat ++
  [EvIssue 0%nat (OSend (SSingle (str "p") 0 0 (str "x"))); EvIssue 0%nat (OAck [mk_ack 0 mid56 0]); EvIssue 0%nat (OSend (SBatch (str "p") 0 1 [str "y"; str "z"]));
   EvClient 0%nat; EvClient 0%nat; EvClient 0%nat; EvWrite xA 5 true].
Example C60_meets : exists s cl reads,
  cl_run 0 (str "p") client_init y_cl = Some cl /\ sends_in_turn None y_cl /\ N.of_nat (length (filter is_send (calls y_cl))) <= 2 ^ 64 /\
  reach xE y_ops s /\ requests 0%nat (s_log s) = cl_queue cl /\
  (forall n b p, In (OForward n b (OSend p)) (s_log s) -> In n (issued 0%nat (s_log s)) -> b = xA) /\
  sends_written 0%nat xA (s_log s) = [OSend (SSingle (str "p") 0 0 (str "x"))] /\
  sent_as 0 (str "p") 0 (calls y_cl) = [OSend (SSingle (str "p") 0 0 (str "x")); OSend (SBatch (str "p") 0 1 [str "y"; str "z"]); OSend (SSingle (str "p") 0 2 (str "w"))] /\
  writes_succeed xE xA steady y_ops /\ (forall n o, In (n, o) (queued xA (s_log s)) -> sendable_request o) /\
  concat reads = wire xE xA steady y_ops /\ (length (concat reads) > 60)%nat.
Proof.
  destruct (run xE sys_init y_ops) as [s|] eqn:R; [|vm_compute in R; discriminate].
  destruct (cl_run 0 (str "p") client_init y_cl) as [cl|] eqn:RC; [|vm_compute in RC; discriminate].
  exists s, cl, [firstn 7 (wire xE xA steady y_ops); skipn 7 (wire xE xA steady y_ops)].
  assert (L : concat [firstn 7 (wire xE xA steady y_ops); skipn 7 (wire xE xA steady y_ops)] = wire xE xA steady y_ops) by (cbn [concat]; rewrite app_nil_r; apply firstn_skipn).
  assert (Fw : forall n b p, In (OForward n b (OSend p)) (s_log s) -> b = xA).
  { intros n b p X. vm_compute in R. injection R as <-. cbn [s_log] in X. repeat (destruct X as [X|X]; [try discriminate X; try (injection X as <- <- <-; vm_compute; reflexivity)|]). destruct X. }
  assert (Qs : forall n o, In (n, o) (queued xA (s_log s)) -> sendable_request o).
  { intros n o X. vm_compute in R. injection R as <-. vm_compute in X.
    repeat (destruct X as [X|X]; [injection X as <- <-; split; [cbn [req_ok]; try (apply Forall_cons; [|constructor]); repeat match goal with |- _ /\ _ => split end; vm_compute; auto|split; [vm_compute; reflexivity|discriminate]]|]). destruct X. }
  assert (Rq : requests 0%nat (s_log s) = cl_queue cl) by (vm_compute in R, RC; injection R as <-; injection RC as <-; vm_compute; reflexivity).
  assert (Sw : sends_written 0%nat xA (s_log s) = [OSend (SSingle (str "p") 0 0 (str "x"))]) by (vm_compute in R; injection R as <-; vm_compute; reflexivity).
  assert (Ln : (length (wire xE xA steady y_ops) > 60)%nat) by (apply Nat.ltb_lt; vm_compute; reflexivity). rewrite <- L in Ln.
  split; [reflexivity|]. split; [vm_compute; auto|]. split; [vm_compute; discriminate|]. split; [exact R|]. split; [exact Rq|].
  split; [intros n b p X _; exact (Fw n b p X)|]. split; [exact Sw|]. split; [reflexivity|]. split; [|split; [exact Qs|split; [exact L|exact Ln]]].
  split; [apply all_ok_check; vm_compute; reflexivity|].
  intros now ok X. vm_compute in X. repeat (destruct X as [X|X]; [try discriminate X; try (injection X as <- _; vm_compute; reflexivity)|]). destruct X.
Qed.
