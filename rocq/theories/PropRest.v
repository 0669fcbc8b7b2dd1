(** C82: left alone, an engine and its connections come to rest, whatever the order, and
    then everything handed to them has been passed on. *)
From Verif Require Import Bytes Errors Wire Proto Codec Address Message Client SpecKeys Engine SpecEngine SpecEngine2 EngineFacts EngineInv EngineReq EngineEv EngineConn EngineLog EngineView EngineQueue EngineRoute EngineNet EngineGate EngineLife EngineEx SpecTurn TurnFacts SpecStack SpecAnswered SpecRest PropMessage PropEngine PropEngine2 PropTurn PropAnswered.
Open Scope N_scope.
Open Scope nat_scope.

Ltac pk := cbn [with_phase with_clients with_res with_conns with_ch with_regs with_ids with_counts say put_conn upd_ch taken s_phase s_clients s_res s_conns s_ch s_regq s_mgr s_nh s_log phase_work].
(** * Every step uses something up *)
Lemma sum_map_same {A} (f g : A -> nat) l : (forall x, In x l -> f x = g x) -> sum (map f l) = sum (map g l).
Proof. induction l as [|x l IH]; intros H; [reflexivity|]. cbn [map sum fold_right]. fold (sum (map f l)). fold (sum (map g l)). rewrite (H x (or_introl eq_refl)), IH; auto. intros; apply H; now right. Qed.
Lemma sum_cons x l : sum (x :: l) = x + sum l. Proof. reflexivity. Qed.
Lemma sum_app a b : sum (a ++ b) = sum a + sum b.
Proof. induction a as [|x a IH]; [reflexivity|]. cbn [app]. rewrite !sum_cons, IH. lia. Qed.
Lemma sum_set f h c n : h < n ->
  sum (map (fun i => length (ch_up (set_ch f h c i))) (seq 0 n)) + length (ch_up (f h)) = sum (map (fun i => length (ch_up (f i))) (seq 0 n)) + length (ch_up c).
Proof.
  intros H. replace n with (h + S (n - S h)) by lia. rewrite seq_app. cbn [seq]. rewrite !map_app, !sum_app. cbn [map]. rewrite !sum_cons. cbn [Nat.add]. rewrite set_ch_same.
  assert (A : forall a b, (forall i, In i (seq a b) -> i <> h) -> sum (map (fun i => length (ch_up (set_ch f h c i))) (seq a b)) = sum (map (fun i => length (ch_up (f i))) (seq a b))).
  { intros a b X. apply sum_map_same. intros i Hi. now rewrite set_ch_other by auto. }
  rewrite !A by (intros i X; apply in_seq in X; lia). lia.
Qed.
Definition ups (s : sys) : nat := sum (map (fun c => length (ch_up (s_ch s c))) (seq 0 (s_nh s))).
Definition kons (s : sys) : nat := sum (map (fun x => conn_work (snd x)) (s_conns s)).
Lemma pending_eq s : pending s = 6 * ups s + length (s_regq s) + kons s + phase_work (s_phase s). Proof. reflexivity. Qed.
Lemma set_work a k l k0 : get_conn a l = Some k0 -> sum (map (fun x => conn_work (snd x)) (set_conn a k l)) + conn_work k0 = sum (map (fun x => conn_work (snd x)) l) + conn_work k.
Proof.
  induction l as [|[b k'] r IH]; cbn [get_conn set_conn]; [discriminate|]. destruct (baddr_eqb a b); intros G; cbn [map snd]; rewrite !sum_cons; [injection G as ->; lia|]. specialize (IH G). lia.
Qed.
Lemma new_work a k l : get_conn a l = None -> sum (map (fun x => conn_work (snd x)) (set_conn a k l)) = sum (map (fun x => conn_work (snd x)) l) + conn_work k.
Proof.
  induction l as [|[b k'] r IH]; cbn [get_conn set_conn]; [intros _; cbn [map snd]; rewrite !sum_cons; cbn; lia|]. destruct (baddr_eqb a b); [discriminate|]. intros G. cbn [map snd]. rewrite !sum_cons, (IH G). lia.
Qed.
Lemma ends_up hs : forall f i, ch_up (ends_ch hs f i) = ch_up (f i).
Proof.
  induction hs as [|h r IH]; intros f i; cbn [ends_ch]; [reflexivity|]. rewrite IH. destruct (Nat.eq_dec i h) as [->|N]; [rewrite set_ch_same; reflexivity|now rewrite set_ch_other].
Qed.
Lemma stop_pending s : pending (stop s) = 6 * ups s + length (s_regq s) + kons s.
Proof.
  rewrite pending_eq. unfold ups, kons. rewrite stop_eq. cbn [s_ch s_nh s_regq s_conns s_phase phase_work].
  rewrite (sum_map_same _ (fun c => length (ch_up (s_ch s c)))) by (intros x _; now rewrite ends_up). lia.
Qed.
Lemma moved_work E s id c : ups (moved E s id c) = ups s /\ kons (moved E s id c) = kons s /\ s_regq (moved E s id c) = s_regq s.
Proof. unfold moved. destruct (baddr_eqb _ _); auto. Qed.
Lemma fwd_work s id n o s' : fwd s id n o s' -> pending s' <= 6 * ups s + length (s_regq s) + kons s + 1 + (if is_connect o then 2 else 1).
Proof.
  intros F. destruct F as [c k F1 F2 F3|c k F1 F2 F3]; [|rewrite stop_pending; lia].
  rewrite pending_eq. unfold ups, kons. pk.
  match goal with |- context[set_conn _ ?k' _] => pose proof (set_work (rc_addr c) k' (s_conns s) k F2) as X end.
  unfold conn_work at 2 4 in X. cbn [k_n2e k_e2n k_alive] in X. rewrite app_length, F3 in X. cbn [length] in X. destruct (is_connect o); cbn [phase_work]; lia.
Qed.
Lemma taken_work s h q n res dropped x : h < s_nh s -> ch_up (s_ch s h) = x :: q ->
  ups (taken s h q n res dropped) + 1 = ups s /\ kons (taken s h q n res dropped) = kons s /\ s_regq (taken s h q n res dropped) = s_regq s.
Proof.
  intros L U. split; [|split; reflexivity]. unfold ups, taken. pk. pose proof (sum_set (s_ch s) h (ch_set_up q (s_ch s h)) (s_nh s) L) as X. rewrite U in X. cbn [ch_set_up ch_up length] in X. lia.
Qed.
Lemma sent_work s a ser i s' : sent s a ser i s' -> pending s' = pending s.
Proof.
  intros S. destruct S as [n r _|_]; rewrite !pending_eq; unfold ups, kons, delivered; pk; [reflexivity|].
  f_equal. f_equal. f_equal. f_equal. apply sum_map_same. intros x _. now rewrite (proj1 (proj2 (push_ch_meta i _ (s_ch s) x))).
Qed.
Lemma wake_work ns w p : phase_work (wake_ph ns w p) = phase_work p.
Proof. destruct (wake_ph_cases ns w p) as [->|(a & m & -> & _ & ->)]; reflexivity. Qed.
Lemma dead_work s a k k0 : get_conn a (s_conns s) = Some k0 -> pending (dead s a k) + conn_work k0 = pending s + (2 * length (k_n2e k) + length (k_e2n k)).
Proof.
  intros G. rewrite !pending_eq. unfold dead, ups, kons. pk. rewrite wake_work.
  match goal with |- context[set_conn _ ?k' _] => pose proof (set_work a k' (s_conns s) k0 G) as X end. unfold conn_work at 4 in X. cbn [k_n2e k_e2n k_alive] in X. lia.
Qed.
Lemma popped_work s a k x q : get_conn a (s_conns s) = Some k -> k_e2n k = x :: q -> k_alive k = true -> pending (popped s a k x q) + 1 = pending s.
Proof.
  intros G U A. rewrite !pending_eq. unfold popped, ups, kons. pk. rewrite wake_work.
  match goal with |- context[set_conn _ ?k' _] => pose proof (set_work a k' (s_conns s) k G) as X end. unfold conn_work at 2 4 in X. cbn [k_n2e k_e2n k_alive] in X. rewrite U, A in X. cbn [length] in X. lia.
Qed.
Lemma uses_up E s e s' : inv E s -> trans E s e s' -> task_event e = true -> pending s' < pending s \/ (e = EvReg /\ s' = s /\ s_mgr s = false /\ s_regq s = []).
Proof.
  intros I T Te. pose proof (v_wf E s I) as W. pose proof (v_h E s I) as Hi.
  assert (Lt : forall c, In c (s_clients s) -> rc_h c < s_nh s) by (intros c X; apply (h_lt s Hi), in_app_iff; left; now apply in_map).
  destruct T; try discriminate Te; clear Te.
  - left. rewrite !pending_eq. unfold ups, kons. pk. rewrite H. destruct (wf_start E s W H) as [_ ->]. cbn. lia.
  - left. rewrite stop_pending, pending_eq, H. unfold ups, kons. pk. lia.
  - left. destruct (taken_work s h q n res dropped (n, o)) as (X1 & X2 & X3); [subst h; auto|exact H2|]. pose proof (fwd_work _ _ _ _ _ H5) as Y. rewrite H4, X2, X3 in Y. rewrite (pending_eq s), H. cbn [phase_work]. lia.
  - left. destruct (taken_work s h q n res dropped (n, OConnect r)) as (X1 & X2 & X3); [subst h; auto|exact H2|].
    rewrite (pending_eq s), H. rewrite pending_eq. change (ups (with_phase ?x ?p)) with (ups x). change (kons (with_phase ?x ?p)) with (kons x). change (s_regq (with_phase ?x ?p)) with (s_regq x). cbn [with_phase s_phase phase_work]. rewrite X2, X3. lia.
  - left. destruct (taken_work s h q n res dropped (n, OConnect r)) as (X1 & X2 & X3); [subst h; auto|exact H2|].
    rewrite (pending_eq s), H. rewrite pending_eq. change (ups (with_phase ?x ?p)) with (ups x). change (kons (with_phase ?x ?p)) with (kons x). change (s_regq (with_phase ?x ?p)) with (s_regq x). cbn [with_phase s_phase phase_work]. rewrite X2, X3. lia.
  - left. destruct (taken_work s h q n res dropped (n, OConnect r)) as (X1 & X2 & X3); [subst h; auto|exact H2|]. pose proof (fwd_work _ _ _ _ _ H6) as Y. cbn [is_connect] in Y.
    destruct (moved_work E (taken s h q n res dropped) (rc_id c) (filled E r)) as (Z1 & Z2 & Z3). rewrite Z1, Z2, Z3, X2, X3 in Y. rewrite (pending_eq s), H. cbn [phase_work]. lia.
  - left. rewrite stop_pending, pending_eq, H. cbn. lia.
  - left. rewrite stop_pending, pending_eq, H. unfold ups, kons. pk. lia.
  - left. rewrite !pending_eq, H. unfold ups, kons. pk. lia.
  - left. pose proof (fwd_work _ _ _ _ _ H1) as Y. cbn [is_connect] in Y.
    match type of Y with context[moved E ?x id ?y] => destruct (moved_work E x id y) as (Z1 & Z2 & Z3) end. rewrite Z1, Z2, Z3 in Y. rewrite (pending_eq s), H. unfold ups, kons in *. pk. cbn [say s_ch s_nh s_conns s_regq] in Y. lia.
  - left. pose proof (fwd_work _ _ _ _ _ H0) as Y. cbn [is_connect] in Y.
    match type of Y with context[moved E ?x id ?y] => destruct (moved_work E x id y) as (Z1 & Z2 & Z3) end. rewrite Z1, Z2, Z3 in Y. pose proof (wf_dial E s W) as D. rewrite H in D.
    pose proof (new_work (caddr E c) conn_init (s_conns s) D) as N. rewrite (pending_eq s), H. unfold ups, kons in *. cbn [say put_conn with_conns s_ch s_nh s_conns s_regq] in Y. cbn [phase_work]. change (conn_work conn_init) with 1 in N. lia.
  - left. rewrite stop_pending, pending_eq, H. unfold ups, kons. pk. lia.
  - left. rewrite (sent_work _ _ _ _ _ H0), !pending_eq, H. unfold ups, kons. pk. lia.
  - left. rewrite stop_pending, pending_eq, H. cbn. lia.
  - left. rewrite !pending_eq. unfold ups, kons. pk. match goal with |- context[set_conn _ ?k' _] => pose proof (set_work a k' (s_conns s) k H1) as X end.
    unfold conn_work at 2 4 in X. cbn [k_n2e k_e2n k_alive] in X. rewrite H2, H3, app_length in X. cbn [length] in X. lia.
  - left. rewrite stop_pending, (pending_eq s), H. unfold ups, kons. pk. match goal with |- context[set_conn _ ?k' _] => pose proof (set_work a k' (s_conns s) k H1) as X end.
    unfold conn_work at 2 4 in X. cbn [k_n2e k_e2n k_alive] in X. rewrite H2, H3 in X. cbn [length] in X. lia.
  - left. rewrite (sent_work _ _ _ _ _ H4), !pending_eq. unfold ups, kons. pk. match goal with |- context[set_conn _ ?k' _] => pose proof (set_work a k' (s_conns s) k H1) as X end.
    unfold conn_work at 2 4 in X. cbn [k_n2e k_e2n k_alive] in X. rewrite H2 in X. cbn [length] in X. lia.
  - left. rewrite stop_pending, pending_eq, H. cbn. lia.
  - left. rewrite !pending_eq. unfold ups, kons. pk. rewrite H0. cbn [length]. lia.
  - left. rewrite stop_pending, (pending_eq s), H. unfold ups, kons. pk. rewrite H0. cbn [length]. lia.
  - left. rewrite stop_pending, pending_eq, H. cbn. lia.
  - right. auto.
  - left. pose proof (popped_work s a k x q H H1 H0) as X. change (pending (say (popped s a k x q) ?l)) with (pending (popped s a k x q)). lia.
  - left. pose proof (popped_work s a k x q H H1 H0) as X.
    assert (G : get_conn a (s_conns (popped s a k x q)) = Some (mk_conn q (k_n2e k) (fst (put_item x (k_res k))) true (k_errored k))) by (unfold popped; pk; now rewrite get_set_same).
    pose proof (dead_work _ a (mk_conn q (k_n2e k) (fst (put_item x (k_res k))) true (k_errored k)) _ G) as Y. unfold conn_work in Y. cbn [k_n2e k_e2n k_alive] in Y. lia.
  - left. pose proof (dead_work s a k k H) as Y. unfold conn_work in Y. rewrite H0, H1 in Y. cbn [length] in Y. lia.
Qed.

(** Whatever order the tasks run in and however their calls end, they take at most
    [pending] steps; only waiting for registrations that can no longer come - the manager
    is gone - can go on for ever. *)
Definition is_reg (e : event) : bool := match e with EvReg => true | _ => false end.
Lemma mgr_task E s e s' : trans E s e s' -> task_event e = true -> s_mgr s' = s_mgr s.
Proof.
  assert (F : forall s id n o s', fwd s id n o s' -> s_mgr s' = s_mgr s) by (intros s0 id n o s1 []; [reflexivity|now rewrite stop_eq]).
  assert (M : forall s id c, s_mgr (moved E s id c) = s_mgr s) by (intros; unfold moved; destruct (baddr_eqb _ _); reflexivity).
  assert (Sn : forall s a ser i s', sent s a ser i s' -> s_mgr s' = s_mgr s) by (intros s0 a ser i s1 []; reflexivity).
  intros T Te. destruct T; try discriminate Te; rewrite ?stop_eq; try reflexivity; try (cbn; congruence);
    try (match goal with X : fwd _ _ _ _ _ |- _ => rewrite (F _ _ _ _ _ X), ?M; reflexivity end);
    try (match goal with X : sent _ _ _ _ _ |- _ => rewrite (Sn _ _ _ _ _ X); reflexivity end).
Qed.
Theorem C82_comes_to_rest : forall E h s h2 s2, reach E h s -> run E s h2 = Some s2 -> forallb task_event h2 = true ->
  length (filter (fun e => negb (is_reg e)) h2) + pending s2 <= pending s /\ (s_mgr s = true -> length h2 + pending s2 <= pending s).
Proof.
  intros E h s h2 s2 H R A. pose proof (reach_all E h s H) as I. clear H. revert s I R. induction h2 as [|e h2 IH]; intros s I R; cbn [run] in R; [injection R as <-; cbn; lia|].
  cbn [forallb] in A. apply andb_true_iff in A as [Te A]. destruct (step E s e) as [s1|] eqn:S; [|discriminate].
  pose proof (step_trans _ _ _ _ (v_wf E s I) S) as T. destruct (IH A s1 (inv_trans E s e s1 I T) R) as [B C]. rewrite (mgr_task E s e s1 T Te) in C.
  destruct (uses_up E s e s1 I T Te) as [U|(-> & -> & M & _)].
  - cbn [filter length]. split; [destruct (negb (is_reg e)); cbn [length]; lia|intros M; specialize (C M); lia].
  - cbn [filter is_reg negb length]. split; [exact B|]. rewrite M. discriminate.
Qed.
Print Assumptions C82_comes_to_rest.
(** Finding: with the manager dropped, no registration queued and a client registered,
    the engine's loop has a branch that is always ready and does nothing: the select
    (src/pulsar.rs:70-80) yields an error from the closed registration channel, which is
    logged and dropped (262-275), and the loop starts over, for ever. *)
Theorem C82_spins : forall E h s n, reach E h s -> s_phase s = PRun -> s_mgr s = false -> s_regq s = [] -> registered (s_log s) <> [] ->
  run E s (repeat EvReg n) = Some s.
Proof.
  intros E h s n H P M Q R. rewrite (g_reg s (reach_gate E h s H)) in R.
  assert (S : step E s EvReg = Some s) by (cbn [step]; rewrite P, Q, M; destruct (s_clients s) eqn:X; [exfalso; apply R; unfold pairs; now rewrite X|reflexivity]).
  induction n as [|n IH]; cbn [repeat run]; [reflexivity|]. rewrite S. exact IH.
Qed.
Print Assumptions C82_spins.

(** * At rest *)
Definition quiet (s : sys) : Prop :=
  match s_phase s with
  | PStop => forall a k, get_conn a (s_conns s) = Some k -> k_alive k = false
  | PConn _ _ Waiting => forall a k, get_conn a (s_conns s) = Some k -> k_alive k = true -> k_e2n k = []
  | PRun => s_regq s = [] /\ (s_clients s = [] -> s_mgr s = true) /\ (forall c, In c (s_clients s) -> idle_client (rc_h c) s) /\
      (forall a k, get_conn a (s_conns s) = Some k -> k_alive k = true -> k_e2n k = []) /\
      (s_clients s <> [] -> forall a, ~ busy_conn s a)
  | _ => False
  end.
Lemma conn_find (f : conn -> bool) l : (exists a k, get_conn a l = Some k /\ f k = true) \/ (forall a k, get_conn a l = Some k -> f k = false).
Proof.
  destruct (existsb (fun a => match get_conn a l with Some k => f k | None => false end) (map fst l)) eqn:X.
  - left. apply existsb_exists in X as (a & _ & Y). destruct (get_conn a l) as [k|] eqn:G; [|discriminate]. eauto.
  - right. intros a k G. destruct (f k) eqn:F; [|reflexivity]. rewrite <- X. symmetry. apply existsb_exists. exists a. rewrite G. split; [|exact F].
    apply in_map_iff. exists (a, k). split; [reflexivity|]. now apply EngineFacts.get_conn_in.
Qed.
(** Steps whose calls succeed. *)
Definition able (e : event) : bool :=
  match e with EvStart b | EvDial b => b | EvAuth (Ok []) => true | EvAuth _ => false | EvWrite _ now io => (now =? 0)%N && io | EvClient _ | EvAnswered | EvConn _ | EvReg => true | _ => false end.
Lemma quiet_or_step E rank h s : reach E h s -> as_polled E rank h ->
  quiet s \/ exists e s', able e = true /\ task_event e = true /\ step E s e = Some s' /\ as_polled E rank (h ++ [e]) /\ pending s' < pending s.
Proof.
  intros H Po. pose proof (reach_all E h s H) as I.
  assert (G : forall e s', able e = true -> task_event e = true -> step E s e = Some s' -> as_polled E rank (h ++ [e]) -> (e <> EvReg \/ s_mgr s = true) ->
    exists e s', able e = true /\ task_event e = true /\ step E s e = Some s' /\ as_polled E rank (h ++ [e]) /\ pending s' < pending s).
  { intros e s' Ae Te S P N. exists e, s'. split; [exact Ae|]. split; [exact Te|]. split; [exact S|]. split; [exact P|].
    destruct (uses_up E s e s' I (step_trans _ _ _ _ (v_wf E s I) S) Te) as [U|(X & _ & Y & _)]; [exact U|]. destruct N; congruence. }
  assert (G' : forall e s', able e = true -> task_event e = true -> step E s e = Some s' -> (forall c, e <> EvClient c) -> (forall a, e <> EvConn a) -> (e <> EvReg \/ s_mgr s = true) ->
    exists e s', able e = true /\ task_event e = true /\ step E s e = Some s' /\ as_polled E rank (h ++ [e]) /\ pending s' < pending s).
  { intros e s' Ae Te S N1 N2 N3. apply (G e s' Ae Te S); [|exact N3]. apply (polled_snoc E rank h e s Po H). destruct e; try exact Logic.I; exfalso; [eapply N1|eapply N2]; reflexivity. }
  destruct (conn_find (fun k => k_alive k && match k_e2n k with [] => false | _ => true end) (s_conns s)) as [(a & k & K & X)|W].
  { right. apply andb_true_iff in X as [A X]. destruct (k_e2n k) as [|x q] eqn:Q; [discriminate|].
    eapply (G' (EvWrite a 0 true)); try discriminate; try reflexivity; [|left; discriminate]. cbn [step]. rewrite K, A, Q. reflexivity. }
  assert (W' : forall a k, get_conn a (s_conns s) = Some k -> k_alive k = true -> k_e2n k = []).
  { intros a k K A. specialize (W a k K). cbn beta in W. rewrite A in W. destruct (k_e2n k); [reflexivity|discriminate]. }
  destruct (s_phase s) as [| |id n c|id n c|a n [|ser i|]|] eqn:P; unfold quiet; rewrite P.
  - right. eapply (G' (EvStart true)); try discriminate; try reflexivity; [|left; discriminate]. cbn [step]. rewrite P. reflexivity.
  - destruct (s_regq s) as [|x q] eqn:Q.
    2:{ right. destruct (s_mgr s) eqn:M.
        - assert (S : exists s', step E s EvReg = Some s') by (cbn [step]; rewrite P, Q, ?M; destruct x as [[? ?] ?]; cbn; rewrite ?M; eauto). destruct S as [s' S].
          eapply (G' EvReg s'); try discriminate; try reflexivity; auto.
        - assert (S : exists s', step E s EvReg = Some s') by (cbn [step]; rewrite P, Q, ?M; destruct x as [[? ?] ?]; cbn; rewrite ?M; eauto). destruct S as [s' S].
          exists EvReg, s'. split; [reflexivity|]. split; [reflexivity|]. split; [exact S|]. split; [apply (polled_snoc E rank h EvReg s Po H); exact Logic.I|].
          destruct (uses_up E s EvReg s' I (step_trans _ _ _ _ (v_wf E s I) S) eq_refl) as [U|(_ & _ & _ & X)]; [exact U|congruence]. }
    destruct (s_clients s) as [|c0 cs] eqn:Cl.
    + destruct (s_mgr s) eqn:M.
      * left. split; [reflexivity|]. split; [reflexivity|]. split; [intros c []|]. split; [exact W'|intros X; congruence].
      * right. assert (S : step E s EvReg = Some (stop s)) by (cbn [step]; rewrite P, Q, M, Cl; reflexivity).
        exists EvReg, (stop s). split; [reflexivity|]. split; [reflexivity|]. split; [exact S|]. split; [apply (polled_snoc E rank h EvReg s Po H); exact Logic.I|]. rewrite stop_pending, pending_eq, P. cbn [phase_work]. unfold ups, kons. lia.
    + assert (Rg : registered (s_log s) <> []) by (rewrite (g_reg s (reach_gate E h s H)); unfold pairs; rewrite Cl; discriminate).
      destruct (Forall_Exists_dec (fun c => idle_client (rc_h c) s) (fun c => idle_dec s (rc_h c)) (s_clients s)) as [Ic|Ec].
      * destruct (Forall_Exists_dec (fun a => ~ busy_conn s a) (fun a => match busy_dec s a with left b => right (fun n => n b) | right n => left n end) (map fst (s_conns s))) as [Ib|Eb].
        -- left. split; [reflexivity|]. split; [discriminate|]. rewrite <- Cl. split; [now apply Forall_forall|]. split; [exact W'|].
           intros _ a B. rewrite Forall_forall in Ib. apply (Ib a); [|exact B]. destruct B as (k & K & _). apply in_map_iff. exists (a, k). split; [reflexivity|]. now apply EngineFacts.get_conn_in.
        -- right. apply Exists_exists in Eb as (a & _ & B). destruct (busy_dec s a) as [B'|B']; [|contradiction].
           destruct (C76_some_connection_can_be_read E rank h s a H Po P Rg B') as (b & s' & _ & _ & S & Pb). apply (G (EvConn b) s' eq_refl eq_refl S Pb). left. discriminate.
      * right. apply Exists_exists in Ec as (c & Hc & B).
        assert (Rc : In (rc_h c, rc_id c) (registered (s_log s))) by (rewrite (g_reg s (reach_gate E h s H)); unfold pairs; apply in_map_iff; exists c; auto).
        destruct (C76_some_client_can_be_served E rank h s (rc_h c) (rc_id c) H Po P Rc B) as (d & s' & _ & _ & S & Pb). apply (G (EvClient d) s' eq_refl eq_refl S Pb). left. discriminate.
  - right. eapply (G' (EvAuth (Ok []))); try discriminate; try reflexivity; [|left; discriminate]. cbn [step]. rewrite P. reflexivity.
  - right. eapply (G' (EvDial true)); try discriminate; try reflexivity; [|left; discriminate]. cbn [step]. rewrite P. reflexivity.
  - left. exact W'.
  - right. eapply (G' EvAnswered); try discriminate; try reflexivity; [|left; discriminate]. cbn [step]. rewrite P. reflexivity.
  - right. eapply (G' EvAnswered); try discriminate; try reflexivity; [|left; discriminate]. cbn [step]. rewrite P. reflexivity.
  - destruct (conn_find k_alive (s_conns s)) as [(a & k & K & A)|D]; [|left; exact D].
    right. eapply (G' (EvWrite a 0 true)); try discriminate; try reflexivity; [|left; discriminate]. cbn [step]. rewrite K, A, (W' a k K A), P. reflexivity.
Qed.
Lemma quiet_rest E rank h s : reach E h s -> quiet s -> at_rest E rank h s.
Proof.
  intros H Q e s' Te S _. pose proof (step_trans _ _ _ _ (reach_wf E h s H) S) as T. unfold quiet in Q.
  destruct T; try discriminate Te; try reflexivity; exfalso;
    match goal with P : s_phase s = _ |- _ => rewrite P in Q | _ => idtac end; try exact Q;
    try (destruct Q as (Q1 & Q2 & Q3 & Q4 & Q5));
    try (match goal with X : In ?c (s_clients s), Y : rc_h ?c = ?h0, Z : ch_up (s_ch s ?h0) = _ :: _ |- _ => destruct (Q3 c X) as [A _]; rewrite Y in A; congruence end);
    try (match goal with X : In ?c (s_clients s), Y : rc_h ?c = ?h0, Z : ch_client (s_ch s ?h0) = false |- _ => destruct (Q3 c X) as [_ A]; rewrite Y in A; congruence end);
    try (match goal with X : s_clients s <> [], K : get_conn ?a _ = Some ?k |- _ => apply (Q5 X a); exists k; split; [exact K|]; intros [A B]; congruence end);
    try congruence.
  - match goal with X : s_clients s = [] |- _ => apply Q2 in X end. congruence.
  - destruct (s_phase s) as [| |? ? ?|? ? ?|b m [|? ?|]|] eqn:P; try exact Q; [destruct Q as (_ & _ & _ & Q & _)| |]; specialize (Q a k H0); rewrite Q in *; auto; congruence.
  - destruct (s_phase s) as [| |? ? ?|? ? ?|b m [|? ?|]|] eqn:P; try exact Q; [destruct Q as (_ & _ & _ & Q & _)| |]; specialize (Q a k H0); rewrite Q in *; auto; congruence.
  - rewrite (Q a k H0) in *. congruence.
Qed.
(** From any state they come to rest in the order the engine polls, in at most [pending] steps. *)
Theorem C82_can_come_to_rest : forall E rank h s, reach E h s -> as_polled E rank h ->
  exists h2 s2, run E s h2 = Some s2 /\ forallb task_event h2 = true /\ length h2 <= pending s /\ as_polled E rank (h ++ h2) /\ at_rest E rank (h ++ h2) s2.
Proof.
  intros E rank h s. remember (pending s) as n eqn:En. revert h s En. induction n as [n IH] using lt_wf_ind. intros h s -> H Po.
  destruct (quiet_or_step E rank h s H Po) as [Q|(e & s' & _ & Te & S & Pe & Lt)].
  - exists [], s. rewrite app_nil_r. split; [reflexivity|]. split; [reflexivity|]. split; [apply Nat.le_0_l|]. split; [exact Po|]. now apply quiet_rest.
  - assert (H' : reach E (h ++ [e]) s') by (apply (reach_app E h s [e] s' H); cbn [run]; now rewrite S).
    destruct (IH _ Lt (h ++ [e]) s' eq_refl H' Pe) as (h2 & s2 & R & A & L & P & At). exists (e :: h2), s2. rewrite <- app_assoc in P, At. cbn [app] in P, At.
    split; [cbn [run]; now rewrite S|]. split; [cbn [forallb]; now rewrite Te|]. split; [cbn [length]; lia|]. auto.
Qed.
Print Assumptions C82_can_come_to_rest.
Lemma rest_quiet E rank h s : reach E h s -> as_polled E rank h -> at_rest E rank h s -> quiet s.
Proof.
  intros H Po A. destruct (quiet_or_step E rank h s H Po) as [Q|(e & s' & _ & Te & S & Pe & Lt)]; [exact Q|]. rewrite (A e s' Te S Pe) in Lt. lia.
Qed.
Lemma r_find_in k r n : r_find k r = Some n -> In (k, n) r.
Proof.
  induction r as [|[k' m] r IH]; cbn [r_find]; [discriminate|]. destruct (bytes_eqb k k') eqn:X; intros F; [|right; auto]. apply bytes_eqb_spec in X. injection F as ->. left. now subst.
Qed.
Lemma drained E h s a k : reach E h s -> get_conn a (s_conns s) = Some k -> k_alive k = true -> k_e2n k = [] -> written a (s_log s) = queued a (s_log s).
Proof.
  intros H K A Q. destruct (reach_queues E h s H) as [X _]. destruct (q_out s X a k K) as (lost & Y & _ & Z). rewrite (Z A), Q in Y. cbn [app outs map] in Y. now rewrite app_nil_r in Y.
Qed.
(** Then the engine has ended and so have all connections; or a connect waits for its
    answer; or the engine waits for events and everything it has been given has been
    passed on. *)
Theorem C82_at_rest : forall E rank h s, reach E h s -> as_polled E rank h -> at_rest E rank h s -> let l := s_log s in
  (In OStop l /\ forall a, ~ open_conn s a) \/
  (~ In OStop l /\ (forall a, open_conn s a -> written a l = queued a l) /\
   ((exists n a c, In (OForward n a (OConnect c)) l /\ in_flight l n KConnect) \/
    (s_regq s = [] /\ (registered l = [] -> s_mgr s = true) /\ (forall n, ~ in_flight l n KConnect) /\
     (forall c id n, In (c, id) (registered l) -> In n (issued c l) -> In n (forwarded l)) /\
     (registered l <> [] -> forall a, In (ODial a true) l -> open_conn s a /\ handles a l = arrivals a l)))).
Proof.
  intros E rank h s H Po A l. pose proof (rest_quiet E rank h s H Po A) as Q. unfold quiet in Q. pose proof (reach_all E h s H) as I. pose proof (v_s E s I) as Si. pose proof (c_ph E s (v_c E s I)) as Cp. unfold phase_ok in Cp.
  destruct (s_phase s) as [| |? ? ?|? ? ?|b m [|? ?|]|] eqn:P; try contradiction.
  - right. destruct Q as (Q1 & Q2 & Q3 & Q4 & Q5). split; [unfold l; rewrite <- (i_stop s Si), P; discriminate|]. split; [intros a (k & K & Al); exact (drained E h s a k H K Al (Q4 a k K Al))|]. right.
    pose proof (g_reg s (reach_gate E h s H)) as G. unfold l. rewrite G. split; [exact Q1|]. split; [|split; [|split]].
    + intros X. apply Q2. unfold pairs in X. destruct (s_clients s); [reflexivity|discriminate].
    + intros n F. destruct (flight_waiting _ _ _ F) as (key & (o & W1 & W2 & W3 & W4 & W5) & K).
      assert (key = kconnect) by (pose proof (K (OConnect (mk_connect None None None)) eq_refl) as Z; cbn in Z; injection Z as <-; reflexivity). subst key.
      destruct (r_done s (v_r E s I) n o W4 W1 W2) as [X|X]; [contradiction|]. apply in_map_iff in X as ([k' n'] & En & X). cbn [snd] in En. subst n'.
      destruct (r_res s (v_r E s I) k' n X) as (o' & V1 & _ & V3 & _). assert (o' = o) by (destruct V1 as [c1 V1], W1 as [c2 W1]; exact (proj2 (r_uniq s (v_r E s I) c1 n o' c2 o V1 W1))). subst o'.
      assert (k' = kconnect) by congruence. subst k'. pose proof (r_keys s (v_r E s I)) as ND. clear - X Cp. induction (s_res s) as [|[k m] r IH]; [destruct X|]. cbn [r_find] in Cp. destruct (bytes_eqb kconnect k) eqn:Eb; [discriminate|]. destruct X as [X|X]; [|exact (IH Cp X)].
      injection X as -> _. rewrite (proj2 (bytes_eqb_spec _ _) eq_refl) in Eb. discriminate.
    + intros c id n Rc Ic. destruct (reach_queues E h s H) as [X (rest & T1 & T2)]. rewrite P in T2. subst rest. rewrite app_nil_r in T1.
      pose proof (q_up s X c) as U. unfold pairs in Rc. apply in_map_iff in Rc as (x & Ex & Hx). injection Ex as <- _. destruct (Q3 x Hx) as [E1 _]. rewrite E1 in U. cbn [map] in U. rewrite app_nil_r in U. rewrite U in Ic. apply filter_In in Ic as [Ic _]. now rewrite <- T1.
    + intros X a D. assert (Nc : s_clients s <> []) by (intros Y; apply X; unfold pairs; now rewrite Y). apply (i_dial s Si) in D. destruct (get_conn a (s_conns s)) as [k|] eqn:K; [|contradiction].
      assert (Y : k_n2e k = [] /\ k_alive k = true).
      { destruct (k_n2e k) eqn:N; [destruct (k_alive k) eqn:Al; [auto|]|]; exfalso; apply (Q5 Nc a); exists k; (split; [exact K|]); intros [Z1 Z2]; congruence. }
      destruct Y as [Y1 Y2]. split; [exists k; auto|]. destruct (reach_queues E h s H) as [Z _]. destruct (q_in s Z a k K) as (lost & I1 & I2). rewrite Y1, P in *. rewrite I2 in I1 by discriminate. cbn [map unconnected flat_map app] in I1. now rewrite app_nil_r in I1.
  - right. split; [unfold l; rewrite <- (i_stop s Si), P; discriminate|]. split; [intros a (k & K & Al); exact (drained E h s a k H K Al (Q a k K Al))|]. left.
    destruct Cp as (C1 & (c & C2) & _). exists m, b, c. split; [exact C2|].
    destruct (c_fw E s (v_c E s I) m b (OConnect c) C2) as (Tk & q & Rq & Fo). pose proof (r_res s (v_r E s I) _ _ (r_find_in _ _ _ C1)) as (o & W1 & W2 & W3 & W4 & W5).
    exists q. split; [exact Rq|]. assert (Kq : kind_of q = Some KConnect) by (destruct q; cbn in Fo; try discriminate Fo; reflexivity). auto.
  - left. split; [apply (i_stop s Si); exact P|]. intros a (k & K & Al). rewrite (Q a k K) in Al. discriminate.
Qed.
Print Assumptions C82_at_rest.
(** When the engine runs, no connect is in flight and a client is registered, every
    request of a registered client has been taken for writing by a connection. *)
Theorem C82_all_written : forall E rank h s c id n, reach E h s -> as_polled E rank h -> at_rest E rank h s -> let l := s_log s in
  ~ In OStop l -> (forall m, ~ in_flight l m KConnect) -> In (c, id) (registered l) -> In n (issued c l) -> exists a o ok, In (OForward n a o) l /\ In (OWrite a (Some n) o ok) l.
Proof.
  intros E rank h s c id n H Po A l Ns Nc Rc Ic. destruct (C82_at_rest E rank h s H Po A) as [[X _]|(_ & W & [(m & a & r & _ & X)|(_ & _ & _ & F & O)])]; [contradiction|exfalso; exact (Nc m X)|].
  specialize (F c id n Rc Ic). unfold forwarded in F. apply in_flat_map in F as (x & Hx & Hn). destruct x as [| | | | |n' a o| | | | | | | | | | | | |]; try contradiction. destruct Hn as [->|[]].
  destruct (in_split _ _ Hx) as (l1 & l2 & El). destruct (reach_entries E h s H _ _ _ El) as (_ & D & _).
  assert (Da : In (ODial a true) l) by (unfold l; rewrite El; apply in_app_iff; now left). destruct (O ltac:(intros X; unfold l in Rc; rewrite X in Rc; destruct Rc) a Da) as [Op _].
  assert (Q : In (Some n, o) (queued a l)) by (unfold queued; apply in_flat_map; exists (OForward n a o); split; [exact Hx|]; rewrite baddr_eqb_refl; now left).
  pose proof (W a Op) as W1. fold l in W1. rewrite <- W1 in Q. unfold written in Q. apply in_flat_map in Q as (y & Hy & Hw). destruct y as [| | | | | | |b sr o' ok| | | | | | | | | | |]; try contradiction. destruct (baddr_eqb b a) eqn:B; [|contradiction]. apply baddr_eqb_spec in B. subst b. destruct Hw as [[= -> ->]|[]]. eauto 6.
Qed.
Print Assumptions C82_all_written.

(** ** What has arrived has been looked at *)
Lemma trans_noarr E s e s' : (forall a x, e <> EvNet a x) -> trans E s e s' -> exists c, s_log s' = s_log s ++ c /\ forallb unread c = true.
Proof.
  intros N T.
  assert (Q : forall c, s_log s' = s_log s ++ c -> forallb unread c = true -> exists c, s_log s' = s_log s ++ c /\ forallb unread c = true) by eauto.
  assert (Q0 : s_log s' = s_log s -> exists c, s_log s' = s_log s ++ c /\ forallb unread c = true) by (intros Y; exists []; rewrite app_nil_r; auto).
  assert (Z : forall t c, s' = stop t -> s_log t = s_log s ++ c -> forallb unread c = true -> exists c, s_log s' = s_log s ++ c /\ forallb unread c = true).
  { intros t c -> Y U. apply (Q (c ++ stop_log t)); auto; [rewrite stop_log_eq, Y, <- app_assoc; reflexivity|]. rewrite forallb_app, U. apply unread_stop. }
  assert (D : forall t c, s_log t = s_log s ++ c -> forallb unread c = true -> (exists d, s_log s' = s_log t ++ d /\ forallb unread d = true) -> exists c, s_log s' = s_log s ++ c /\ forallb unread c = true).
  { intros t c Y U (d & Y' & U'). apply (Q (c ++ d)); auto; [rewrite Y', Y, <- app_assoc; reflexivity|]. rewrite forallb_app, U. exact U'. }
  destruct T; try (exfalso; eapply N; reflexivity); try (apply Q0; reflexivity);
    try (eapply Q; [reflexivity|first [reflexivity|apply unread_ends]]; fail);
    try (eapply Z; [reflexivity|reflexivity|reflexivity]; fail);
    try (apply (Z s []); [reflexivity|symmetry; apply app_nil_r|reflexivity]);
    try (eapply D; [apply taken_log| |eapply fwd_unread; eassumption]; cbn; apply unread_cancel).
  - eapply Q; [reflexivity|]. destruct (ch_engine (s_ch s h)); [reflexivity|apply unread_cancel].
  - eapply Q; [apply taken_log|]. cbn. apply unread_cancel.
  - eapply Q; [apply taken_log|]. cbn. apply unread_cancel.
  - refine (D _ _ _ _ (fwd_unread _ _ _ _ _ H6)); [rewrite moved_log; apply taken_log|]. cbn. apply unread_cancel.
  - refine (D _ _ _ _ (fwd_unread _ _ _ _ _ H1)); [rewrite moved_log; reflexivity|reflexivity].
  - refine (D _ _ _ _ (fwd_unread _ _ _ _ _ H0)); [rewrite moved_log; reflexivity|reflexivity].
  - refine (D _ _ _ _ (sent_unread _ _ _ _ _ H0)); reflexivity.
  - refine (D _ _ _ _ (sent_unread _ _ _ _ _ H4)); reflexivity.
Qed.
Definition seen_or_queued (s : sys) : Prop := ~ In OStop (s_log s) -> forall a ser i, In (OArrive a ser i) (s_log s) -> i <> InConnected ->
  In (OHandle a ser i) (s_log s) \/ exists k, get_conn a (s_conns s) = Some k /\ In (ser, i) (k_n2e k).
Lemma seen_trans E s e s' : inv E s -> seen_or_queued s -> trans E s e s' -> seen_or_queued s'.
Proof.
  intros I V T Ns a ser i Ha Ni. pose proof (trans_up E s e s' a) as Up.
  assert (Old : forall c, s_log s' = s_log s ++ c -> In (OArrive a ser i) (s_log s) -> In (OHandle a ser i) (s_log s') \/ exists k, get_conn a (s_conns s') = Some k /\ In (ser, i) (k_n2e k)).
  { intros c L X. destruct (V ltac:(intros Y; apply Ns; rewrite L; apply in_app_iff; now left) a ser i X Ni) as [Y|(k & K & Q)]; [left; rewrite L; apply in_app_iff; now left|].
    destruct (Up k (v_wf E s I) T K) as (k' & l & K' & U). destruct (reads a e).
    - destruct (k_n2e k) as [|x q] eqn:Eq; [destruct Q|]. destruct (U x q eq_refl) as [U1 U2]. destruct Q as [->|Q]; [left; exact U2|]. right. exists k'. split; [exact K'|]. rewrite U1. apply in_app_iff. now left.
    - right. exists k'. split; [exact K'|]. rewrite U. apply in_app_iff. now left. }
  assert (Unread : forall c, s_log s' = s_log s ++ c -> forallb unread c = true -> In (OHandle a ser i) (s_log s') \/ exists k, get_conn a (s_conns s') = Some k /\ In (ser, i) (k_n2e k)).
  { intros c L U. apply (Old c L). rewrite L in Ha. apply in_app_iff in Ha as [Ha|Ha]; [exact Ha|]. rewrite forallb_forall in U. specialize (U _ Ha). discriminate U. }
  assert (Nt : (exists b x, e = EvNet b x) \/ forall b x, e <> EvNet b x) by (destruct e; try (right; discriminate); left; eauto).
  destruct Nt as [(b & x & ->)|Nt]; [|destruct (trans_noarr E s e s' Nt T) as (c & L & U); exact (Unread c L U)].
  inversion T; subst.
  - apply (Unread []); [symmetry; apply app_nil_r|reflexivity].
  - apply (Unread []); [symmetry; apply app_nil_r|reflexivity].
  - apply (Unread []); [symmetry; apply app_nil_r|reflexivity].
  - cbn [with_phase put_conn with_conns say with_counts s_log] in Ha. apply in_app_iff in Ha as [Ha|[Ha|[]]]; [eapply Old; [reflexivity|exact Ha]|]. injection Ha as <- <- <-. exfalso.
    match goal with X : r_resolve (ikey ?j) (k_res ?k) = Some (?n, ?r), K : get_conn b (s_conns s) = Some ?k |- _ => assert (Y : ikey j = Some kconnect) end.
    { match goal with X : r_resolve (ikey ?j) (k_res ?k) = Some (?n, ?r), K : get_conn b (s_conns s) = Some ?k |- _ => unfold r_resolve in X; destruct (ikey j) as [key|] eqn:Ek; [|discriminate]; destruct (r_find key (k_res k)) as [m|] eqn:F; [|discriminate]; apply r_find_in in F; destruct (c_res E s (v_c E s I) b k key m K F) as [-> _]; reflexivity end. }
    match type of Y with ikey ?j = _ => pose proof (proj1 (C22_match_iff_answers (OConnect (mk_connect None None None)) j KConnect eq_refl) (eq_sym Y)) as An; apply Ni; destruct j; cbn [answers] in An; try contradiction; reflexivity end.
  - cbn [put_conn with_conns say with_counts s_log] in Ha. apply in_app_iff in Ha as [Ha|[Ha|[]]]; [eapply Old; [reflexivity|exact Ha]|]. injection Ha as <- <- <-.
    right. eexists. split; [cbn [put_conn with_conns s_conns]; apply get_set_same|]. cbn [k_n2e]. apply in_app_iff. right. now left.
  - exfalso. apply Ns. cbn [dead with_phase put_conn with_conns say with_counts s_log]. apply in_app_iff. left. apply (i_stop s (v_s E s I)). assumption.
Qed.

Lemma reach_seen E h s : reach E h s -> seen_or_queued s.
Proof.
  intros H. enough (inv E s /\ seen_or_queued s) by tauto. revert h s H. apply (reach_inv E (fun s => inv E s /\ seen_or_queued s)).
  - split; [apply inv_init|]. intros _ a ser i [].
  - intros s e s' _ [I V] T. split; [exact (inv_trans E s e s' I T)|exact (seen_trans E s e s' I V T)].
Qed.
(** And a request that is still in flight waits for its answer only: since the engine
    took it, no event that answers it has arrived on any connection. *)
Theorem C82_only_waits_for_its_answer : forall E rank h s n k l1 l2, reach E h s -> as_polled E rank h -> at_rest E rank h s ->
  (forall m, ~ in_flight (s_log s) m KConnect) -> in_flight (s_log s) n k -> s_log s = l1 ++ OTake n :: l2 ->
  forall a ser i, In (OArrive a ser i) l2 -> ~ answers i k.
Proof.
  intros E rank h s n k l1 l2 H Po A Nc F El a ser i Ha An. pose proof (reach_all E h s H) as I. pose proof (reach_entries E h s H) as En.
  destruct F as (o & F1 & F2 & F3 & F4 & F5).
  assert (Kn : k <> KConnect) by (intros ->; apply (Nc n); exists o; auto).
  assert (Ni : i <> InConnected) by (intros ->; destruct k; cbn [answers] in An; try contradiction; now apply Kn).
  destruct (C82_at_rest E rank h s H Po A) as [[X _]|(Ns & _ & [(m & b & r & _ & X)|(_ & _ & _ & _ & O)])]; [|exfalso; exact (Nc m X)|].
  { apply F5. assert (R := r_done s (v_r E s I) n o F4 F1). rewrite (i_res s (v_s E s I)) in R by (apply (i_stop s (v_s E s I)); exact X). destruct R as [R|[]]; [|exact R]. rewrite (expects_asks o k F2). exact F3. }
  assert (Rg : registered (s_log s) <> []).
  { pose proof (reach_gates E h s H _ _ _ El) as X. cbn [gate] in X. rewrite El, registered_app. destruct (registered l1); [now elim X|discriminate]. }
  assert (Aa : In (OArrive a ser i) (s_log s)) by (rewrite El; apply in_app_iff; right; now right).
  destruct (in_split _ _ Ha) as (p & q & Ep). assert (Ea : s_log s = (l1 ++ OTake n :: p) ++ OArrive a ser i :: q) by (rewrite El, Ep, <- app_assoc; reflexivity).
  destruct (En _ _ _ Ea) as (Da & Un). assert (Da' : In (ODial a true) (s_log s)) by (rewrite Ea; apply in_app_iff; now left). destruct (O Rg a Da') as [Op _].
  destruct (reach_seen E h s H Ns a ser i Aa Ni) as [Hd|(k1 & K1 & Q1)].
  2:{ pose proof (rest_quiet E rank h s H Po A) as Q. unfold quiet in Q. pose proof (c_ph E s (v_c E s I)) as Cp. unfold phase_ok in Cp.
      destruct (s_phase s) as [| |? ? ?|? ? ?|b m [|? ?|]|] eqn:P; try contradiction.
      - destruct Q as (_ & _ & _ & _ & Q5). apply (Q5 ltac:(intros Y; apply Rg; rewrite (g_reg s (reach_gate E h s H)); unfold pairs; now rewrite Y) a). exists k1. split; [exact K1|]. intros [Y _]. rewrite Y in Q1. destruct Q1.
      - destruct Cp as (C1 & (c & C2) & _). destruct (c_fw E s (v_c E s I) m b (OConnect c) C2) as (Tk & q0 & Rq & Fo). pose proof (r_res s (v_r E s I) _ _ (r_find_in _ _ _ C1)) as (o' & W1 & W2 & W3 & W4 & W5).
        apply (Nc m). exists q0. split; [exact Rq|]. assert (Kq : kind_of q0 = Some KConnect) by (destruct q0; cbn in Fo; try discriminate Fo; reflexivity). auto.
      - apply Ns, (i_stop s (v_s E s I)). exact P. }
  apply in_split in Hd as (m1 & m2 & Em). destruct (En _ _ _ Em) as (_ & Am & _ & Hn).
  (* the event is handled after it arrived, so after the request was taken *)
  assert (Pre : exists t, m1 = (l1 ++ OTake n :: p) ++ OArrive a ser i :: t).
  { destruct (in_split _ _ Am) as (x & y & Ex). assert (Ey : s_log s = x ++ OArrive a ser i :: (y ++ OHandle a ser i :: m2)) by (rewrite Em, Ex, <- app_assoc; reflexivity).
    assert (x = l1 ++ OTake n :: p).
    { destruct (En _ _ _ Ey) as (_ & Uy). rewrite Ea in Ey. clear - Ey Un Uy. revert Ey Un Uy. generalize (l1 ++ OTake n :: p) as z, (y ++ OHandle a ser i :: m2) as w. intros z w. revert x.
      induction z as [|v z IH]; intros [|u x] Ey Un Uy; cbn [app] in Ey; [reflexivity| | |].
      - injection Ey as <- _. exfalso. apply (Uy a i). now left.
      - injection Ey as -> _. exfalso. apply (Un a i). now left.
      - injection Ey as -> Ey. f_equal. apply (IH x Ey); intros b j X; [apply (Un b j)|apply (Uy b j)]; now right. }
    subst x. now exists y. }
  destruct Pre as [t Pre].
  assert (Key : okey o = ikey i) by now apply (C22_match_iff_answers o i k F2).
  assert (Pm : s_log s = m1 ++ OHandle a ser i :: m2) by exact Em.
  assert (W : exists key, waiting_on m1 n key /\ ikey i = Some key).
  { assert (Rq : requested m1 n o).
    { destruct (En _ _ _ El) as (_ & (o1 & [c1 R1]) & _). destruct F1 as [c F1]. destruct (r_uniq s (v_r E s I) c n o c1 o1 F1) as [-> ->]; [rewrite El; apply in_app_iff; now left|].
      exists c1. rewrite Pre. apply in_app_iff. left. apply in_app_iff. now left. }
    assert (As : asks o = true) by (rewrite (expects_asks o k F2); exact F3). pose proof (okey_kind o k F2) as Ok. eexists. split; [exists o; split; [exact Rq|]; split; [exact As|]; split; [exact Ok|]|rewrite <- Key; exact Ok].
    split; [rewrite Pre; apply takes_in; apply in_app_iff; left; apply in_elt|]. intros X. apply F5. rewrite Pm, settled_app, in_app_iff. now left. }
  destruct W as (key & W & Ki). destruct (Hn n key W Ki) as [r Er]. apply F5. rewrite Pm, Er, settled_app, in_app_iff. right. cbn. now left.
Qed.
Print Assumptions C82_only_waits_for_its_answer.

(** So if, moreover, whatever has been written has been answered since, every call of a
    registered client that waits for a response has completed. *)
Theorem C82_all_complete : forall E rank h s, reach E h s -> as_polled E rank h -> at_rest E rank h s -> let l := s_log s in
  ~ In OStop l -> (forall m, ~ in_flight l m KConnect) ->
  (forall l1 a n o ok l2 k, l = l1 ++ OWrite a (Some n) o ok :: l2 -> kind_of o = Some k -> expects k = true -> exists b ser i, In (OArrive b ser i) l2 /\ answers i k) ->
  forall c id n o k, In (c, id) (registered l) -> In (OIssue c n o) l -> kind_of o = Some k -> expects k = true -> In n (settled l).
Proof.
  intros E rank h s H Po A l Ns Nc An c id n o k Rc Is Kd Ex. destruct (in_dec Nat.eq_dec n (settled l)) as [X|X]; [exact X|exfalso].
  assert (Ic : In n (issued c l)) by (apply issued_in with o; exact Is).
  destruct (C82_all_written E rank h s c id n H Po A Ns Nc Rc Ic) as (a & o' & ok & Fw & Wr). fold l in Fw, Wr.
  pose proof (reach_all E h s H) as I. destruct (c_fw E s (v_c E s I) n a o' Fw) as (Tk & q & [c' Rq] & Fo).
  destruct (r_uniq s (v_r E s I) c' n q c o Rq Is) as [-> ->].
  assert (Kd' : kind_of o' = Some k) by (rewrite (formed_kind _ _ _ _ _ Fo); exact Kd).
  destruct (in_split _ _ Wr) as (l1 & l2 & El). destruct (An l1 a n o' ok l2 k El Kd' Ex) as (b & ser & i & Ar & Ai).
  (* the request was taken before it was written *)
  pose proof (reach_entries E h s H _ _ _ El) as F1. cbn [entry] in F1. destruct (in_split _ _ F1) as (p & q & Ep).
  assert (Ef : s_log s = p ++ OForward n a o' :: (q ++ OWrite a (Some n) o' ok :: l2)) by (fold l; rewrite El, Ep, <- app_assoc; reflexivity).
  destruct (reach_entries E h s H _ _ _ Ef) as (_ & _ & T1 & _). apply takes_in, in_split in T1 as (t1 & t2 & Et).
  assert (El' : s_log s = t1 ++ OTake n :: (t2 ++ OForward n a o' :: q ++ OWrite a (Some n) o' ok :: l2)) by (rewrite Ef, Et, <- app_assoc; reflexivity).
  apply (C82_only_waits_for_its_answer E rank h s n k _ _ H Po A Nc) with (2 := El') (a := b) (ser := ser) (i := i); auto.
  - exists o. split; [exists c; exact Is|]. auto.
  - apply in_app_iff. right. right. apply in_app_iff. right. now right.
Qed.
Print Assumptions C82_all_complete.
(** And the messages that have arrived for a consumer have been received by it or wait in
    its channel, where the next call finds them. *)
Theorem C82_messages_delivered : forall E rank h s c a id l1 l2, reach E h s -> as_polled E rank h -> at_rest E rank h s -> (newids h <= 2 ^ 64)%N -> s_log s = l1 ++ l2 ->
  ~ In OStop (s_log s) -> (forall m, ~ in_flight (s_log s) m KConnect) -> registered (s_log s) <> [] -> In (ODial a true) (s_log s) ->
  stays (broker_address (e_cfg E)) c a id l1 (s_log s) -> ch_client (s_ch s c) = true ->
  v_got (look (broker_address (e_cfg E)) c (s_log s)) ++ messages (ch_down (s_ch s c)) =
  v_inbox (look (broker_address (e_cfg E)) c l1) ++ messages_for id (skipn (length (handles a l1)) (arrivals a (s_log s))).
Proof.
  intros E rank h s c a id l1 l2 H Po A Hn El Ns Nc Rg D St Cc. pose proof (reach_all E h s H) as I. pose proof (rest_quiet E rank h s H Po A) as Q. unfold quiet in Q.
  assert (P : s_phase s = PRun).
  { pose proof (c_ph E s (v_c E s I)) as Cp. unfold phase_ok in Cp. destruct (s_phase s) as [| |? ? ?|? ? ?|b m [|? ?|]|] eqn:P; try contradiction; [reflexivity| |exfalso; apply Ns, (i_stop s (v_s E s I)); exact P].
    exfalso. destruct Cp as (C1 & (r & C2) & _). destruct (c_fw E s (v_c E s I) m b (OConnect r) C2) as (Tk & q0 & Rq & Fo). pose proof (r_res s (v_r E s I) _ _ (r_find_in _ _ _ C1)) as (o' & W1 & W2 & W3 & W4 & W5).
    apply (Nc m). exists q0. split; [exact Rq|]. assert (Kq : kind_of q0 = Some KConnect) by (destruct q0; cbn in Fo; try discriminate Fo; reflexivity). auto. }
  rewrite P in Q. destruct Q as (_ & _ & _ & _ & Q5).
  assert (Cl : s_clients s <> []) by (intros Y; apply Rg; rewrite (g_reg s (reach_gate E h s H)); unfold pairs; now rewrite Y).
  apply (i_dial s (v_s E s I)) in D. destruct (get_conn a (s_conns s)) as [k|] eqn:K; [|contradiction].
  assert (Y : k_n2e k = []) by (destruct (k_n2e k) eqn:N; [reflexivity|exfalso; apply (Q5 Cl a); exists k; split; [exact K|]; intros [Z _]; congruence]).
  pose proof (C38_stream E h s c a k id l1 l2 H Hn El St ltac:(rewrite P; discriminate) Cc K) as X. rewrite Y in X. cbn [map] in X. change (messages_for id []) with (@nil delivery) in X. rewrite app_nil_r in X. exact X.
Qed.
Print Assumptions C82_messages_delivered.

(** Dropping is the end: once a registered client has been dropped - or the manager, with
    no client registered - the engine and all connections end, unless a connect of
    another client is waiting for its answer. *)
Theorem C82_dropped_ends : forall E rank h s, reach E h s -> as_polled E rank h -> at_rest E rank h s ->
  (exists c id, In (c, id) (registered (s_log s)) /\ ch_client (s_ch s c) = false) \/ (registered (s_log s) = [] /\ s_mgr s = false) ->
  (forall m, ~ in_flight (s_log s) m KConnect) -> In OStop (s_log s) /\ forall a, ~ open_conn s a.
Proof.
  intros E rank h s H Po A D Nc. destruct (C82_at_rest E rank h s H Po A) as [X|(Ns & _ & [(m & a & r & _ & X)|(_ & Mg & _)])]; [exact X|exfalso; exact (Nc m X)|exfalso].
  destruct D as [(c & id & Rc & Gone)|[R M]]; [|rewrite (Mg R) in M; discriminate].
  pose proof (rest_quiet E rank h s H Po A) as Q. unfold quiet in Q. pose proof (reach_all E h s H) as I.
  rewrite (g_reg s (reach_gate E h s H)) in Rc. unfold pairs in Rc. apply in_map_iff in Rc as (x & Ex & Hx). injection Ex as <- _.
  destruct (s_phase s) as [| |? ? ?|? ? ?|b m [|? ?|]|] eqn:P; try contradiction.
  - destruct Q as (_ & _ & Q3 & _). destruct (Q3 x Hx) as [_ Y]. congruence.
  - pose proof (c_ph E s (v_c E s I)) as Cp. unfold phase_ok in Cp. rewrite P in Cp. destruct Cp as (C1 & (r & C2) & _). destruct (c_fw E s (v_c E s I) m b (OConnect r) C2) as (Tk & q0 & Rq & Fo). pose proof (r_res s (v_r E s I) _ _ (r_find_in _ _ _ C1)) as (o' & W1 & W2 & W3 & W4 & W5).
    apply (Nc m). exists q0. split; [exact Rq|]. assert (Kq : kind_of q0 = Some KConnect) by (destruct q0; cbn in Fo; try discriminate Fo; reflexivity). auto.
  - apply Ns, (i_stop s (v_s E s I)). exact P.
Qed.
Print Assumptions C82_dropped_ends.

(** Two clients, requests of both waiting; the tasks come to rest with one request still
    without its answer. *)
Definition y_first : list event := x_polled ++ [EvIssue 0%nat (x_ack 0); EvNet xA (f_msg 1 9 (str "a"))].
Definition y_then : list event := [EvConn xA; EvClient 0%nat; EvWrite xA 0 true; EvClient 1%nat; EvWrite xA 0 true].
Lemma y_polled : forall rank, as_polled xE rank (y_first ++ y_then).
Proof. apply orderly_polled; vm_compute; reflexivity. Qed.
Example C82_meets : exists s s2, reach xE y_first s /\ run xE s y_then = Some s2 /\ forallb task_event y_then = true /\ pending s = 16 /\ s_mgr s = true /\
  (forall rank, as_polled xE rank (y_first ++ y_then) /\ at_rest xE rank (y_first ++ y_then) s2) /\ ~ In OStop (s_log s2) /\ (forall m, ~ in_flight (s_log s2) m KConnect) /\
  In (0, 0%N) (registered (s_log s2)) /\ in_flight (s_log s2) 3 KAck /\ (exists l1 l2, s_log s2 = l1 ++ OTake 3 :: l2) /\ In 3 (issued 0 (s_log s2)).
Proof.
  unfold reach. destruct (run xE sys_init y_first) as [s|] eqn:R; [|vm_compute in R; discriminate]. destruct (run xE s y_then) as [s2|] eqn:R2; [|vm_compute in R; injection R as <-; vm_compute in R2; discriminate].
  exists s, s2. split; [reflexivity|]. split; [exact R2|]. split; [reflexivity|].
  assert (H2 : reach xE (y_first ++ y_then) s2) by exact (reach_app xE y_first s y_then s2 R R2).
  split; [vm_compute in R; injection R as <-; vm_compute; reflexivity|]. split; [vm_compute in R; injection R as <-; reflexivity|].
  assert (Qt : quiet s2).
  { vm_compute in R. injection R as <-. vm_compute in R2. injection R2 as <-. unfold quiet. cbn [s_phase]. split; [reflexivity|]. split; [reflexivity|]. split; [|split].
    - intros c X. cbn [s_clients In] in X. destruct X as [<-|[<-|[]]]; (split; vm_compute; reflexivity).
    - intros a k K. cbn [s_conns get_conn] in K. destruct (baddr_eqb a _) in K; [injection K as <-; reflexivity|discriminate].
    - intros _ a (k & K & N). cbn [s_conns get_conn] in K. destruct (baddr_eqb a _) in K; [injection K as <-; apply N; split; reflexivity|discriminate]. }
  split; [intros rank; split; [apply y_polled|exact (quiet_rest xE rank _ s2 H2 Qt)]|].
  assert (Ns : ~ In OStop (s_log s2)) by (rewrite <- (i_stop s2 (v_s xE s2 (reach_all xE _ s2 H2))); vm_compute in R; injection R as <-; vm_compute in R2; injection R2 as <-; discriminate).
  split; [exact Ns|].
  destruct (C82_at_rest xE (fun _ _ => 0) _ s2 H2 (y_polled _) (quiet_rest xE _ _ s2 H2 Qt)) as [[X _]|(_ & _ & [(m & a & c & _ & (o & X1 & X2 & _ & _ & X5))|(_ & _ & X & _)])]; [contradiction| |].
  { exfalso. apply X5. destruct X1 as [c' X1]. assert (Y : kind_of o = Some KConnect -> In (OIssue c' m o) (s_log s2) -> In m (settled (s_log s2))).
    { clear - R R2. vm_compute in R. injection R as <-. vm_compute in R2. injection R2 as <-. intros K X. cbn [s_log In] in X. repeat (destruct X as [X|X]; [first [discriminate X|injection X as <- <- <-; first [discriminate K|vm_compute; tauto]]|]). destruct X. }
    exact (Y X2 X1). }
  split; [exact X|]. clear - R R2. vm_compute in R. injection R as <-. vm_compute in R2. injection R2 as <-.
  split; [vm_compute; auto|]. split; [exists (x_ack 0); split; [exists 0; vm_compute; repeat first [left; reflexivity|right]|]; split; [reflexivity|]; split; [reflexivity|]; split; [vm_compute; tauto|]; vm_compute; intros X; repeat (destruct X as [X|X]; [discriminate X|]); exact X|].
  split; [apply in_split; vm_compute; repeat first [left; reflexivity|right]|vm_compute; tauto].
Qed.
(** The same with the manager dropped at the end: the loop of C82_spins. *)
Example C82_spinning : exists s, reach xE (y_first ++ y_then ++ [EvDropManager]) s /\ s_phase s = PRun /\ s_mgr s = false /\ s_regq s = [] /\ registered (s_log s) <> [].
Proof.
  unfold reach. destruct (run xE sys_init (y_first ++ y_then ++ [EvDropManager])) as [s|] eqn:R; [|vm_compute in R; discriminate]. vm_compute in R. injection R as <-. eexists. split; [reflexivity|]. repeat split; vm_compute; discriminate.
Qed.
(** The answer arrives and is looked at: then everything has completed, and the message
    that has arrived for client 1 waits in its channel. *)
Definition y_done : list event := y_first ++ y_then ++ [EvNet xA (f_ack 0); EvConn xA].
Fixpoint answered_since (l : list obs) : bool :=
  match l with
  | [] => true
  | OWrite _ (Some _) o _ :: r => match kind_of o with
      | Some k => negb (expects k) || existsb (fun x => match x with OArrive _ _ i => answersb k i | _ => false end) r
      | None => true end && answered_since r
  | _ :: r => answered_since r
  end.
Lemma answered_since_spec l : answered_since l = true -> forall l1 a n o ok l2 k, l = l1 ++ OWrite a (Some n) o ok :: l2 -> kind_of o = Some k -> expects k = true -> exists b ser i, In (OArrive b ser i) l2 /\ answers i k.
Proof.
  intros A l1. revert l A. induction l1 as [|x l1 IH]; intros l A a n o ok l2 k -> K X.
  - cbn [app answered_since] in A. rewrite K, X in A. cbn [negb orb] in A. apply andb_true_iff in A as [A _]. apply existsb_exists in A as (y & Y & B). destruct y; try discriminate. apply answersb_spec in B. eauto.
  - apply (IH (l1 ++ OWrite a (Some n) o ok :: l2)) with a n o ok; auto. cbn [app answered_since] in A. destruct x; try exact A. destruct src; [|exact A]. now apply andb_true_iff in A.
Qed.
Definition stays_now (service : baddr) (h : nat) (a : baddr) (id : N) (m : nat) (l : list obs) : bool :=
  forallb (fun n => let v := look service h (firstn n l) in same_home (v_home v) a && same_id (v_id v) id) (seq m (S (length l) - m)).
Lemma stays_now_spec service h a id m l : m <= length l -> stays_now service h a id m l = true -> stays service h a id (firstn m l) l.
Proof.
  intros Lm A l' [r1 X] [r2 Y]. unfold stays_now in A. rewrite forallb_forall in A.
  assert (E : firstn (length l') l = l') by (rewrite Y, firstn_app, Nat.sub_diag, firstn_all, firstn_O; apply app_nil_r).
  assert (L : m <= length l' <= length l).
  { split; [rewrite X, app_length, firstn_length; lia|rewrite Y, app_length; lia]. }
  specialize (A (length l')). cbn zeta in A. rewrite E in A. destruct (andb_prop _ _ (A ltac:(apply in_seq; lia))) as [B C].
  destruct (v_home (look service h l')) as [b|]; [|discriminate B]. destruct (v_id (look service h l')) as [j|]; [|discriminate C]. cbn in B, C. apply baddr_eqb_spec in B. apply N.eqb_eq in C. subst. auto.
Qed.
Example C82_meets_done : exists s, reach xE y_done s /\ (forall rank, as_polled xE rank y_done /\ at_rest xE rank y_done s) /\ ~ In OStop (s_log s) /\ (forall m, ~ in_flight (s_log s) m KConnect) /\
  (forall l1 a n o ok l2 k, s_log s = l1 ++ OWrite a (Some n) o ok :: l2 -> kind_of o = Some k -> expects k = true -> exists b ser i, In (OArrive b ser i) l2 /\ answers i k) /\
  In (0, 0%N) (registered (s_log s)) /\ In (OIssue 0 3 (x_ack 0)) (s_log s) /\ settled (s_log s) = [0; 1; 3] /\
  (newids y_done <= 2 ^ 64)%N /\ In (ODial xA true) (s_log s) /\ ch_client (s_ch s 1) = true /\ length (messages (ch_down (s_ch s 1))) = 1 /\
  exists l1 l2, s_log s = l1 ++ l2 /\ stays (broker_address (e_cfg xE)) 1 xA 1%N l1 (s_log s) /\ length l1 < length (s_log s).
Proof.
  unfold reach. destruct (run xE sys_init y_done) as [s|] eqn:R; [|vm_compute in R; discriminate]. exists s. split; [reflexivity|].
  assert (Po : forall rank, as_polled xE rank y_done) by (apply orderly_polled; vm_compute; reflexivity).
  assert (Qt : quiet s).
  { vm_compute in R. injection R as <-. unfold quiet. cbn [s_phase]. split; [reflexivity|]. split; [reflexivity|]. split; [|split].
    - intros c X. cbn [s_clients In] in X. destruct X as [<-|[<-|[]]]; (split; vm_compute; reflexivity).
    - intros a k K. cbn [s_conns get_conn] in K. destruct (baddr_eqb a _) in K; [injection K as <-; reflexivity|discriminate].
    - intros _ a (k & K & N). cbn [s_conns get_conn] in K. destruct (baddr_eqb a _) in K; [injection K as <-; apply N; split; reflexivity|discriminate]. }
  split; [intros rank; split; [apply Po|exact (quiet_rest xE rank _ s R Qt)]|].
  assert (Ns : ~ In OStop (s_log s)) by (rewrite <- (i_stop s (v_s xE s (reach_all xE _ s R))); vm_compute in R; injection R as <-; discriminate).
  split; [exact Ns|]. split.
  { destruct (C82_at_rest xE (fun _ _ => 0) _ s R (Po _) (quiet_rest xE _ _ s R Qt)) as [[X _]|(_ & _ & [(m & a & c & _ & (o & X1 & X2 & _ & _ & X5))|(_ & _ & X & _)])]; [contradiction| |exact X].
    exfalso. apply X5. destruct X1 as [c' X1]. revert X2 X1. clear - R. vm_compute in R. injection R as <-. intros K X. cbn [s_log In] in X. repeat (destruct X as [X|X]; [first [discriminate X|injection X as <- <- <-; first [discriminate K|vm_compute; tauto]]|]). destruct X. }
  vm_compute in R. injection R as <-.
  split; [apply answered_since_spec; vm_compute; reflexivity|]. split; [vm_compute; auto|]. split; [vm_compute; repeat first [left; reflexivity|right]|]. split; [vm_compute; reflexivity|].
  split; [vm_compute; discriminate|]. split; [vm_compute; repeat first [left; reflexivity|right]|]. split; [vm_compute; reflexivity|]. split; [vm_compute; reflexivity|].
  match goal with |- context[s_log ?x] => exists (firstn 10 (s_log x)), (skipn 10 (s_log x)) end. split; [symmetry; apply firstn_skipn|]. split; [apply stays_now_spec; [vm_compute; repeat constructor|vm_compute; reflexivity]|vm_compute; repeat constructor].
Qed.
(** Client 0 is dropped while client 1 is still there: the tasks come to rest ended. *)
Definition y_gone : list event := y_done ++ [EvDropClient 0; EvClient 0; EvWrite xA 0 true].
Example C82_meets_dropped : exists s, reach xE y_gone s /\ (forall rank, as_polled xE rank y_gone /\ at_rest xE rank y_gone s) /\ In (0, 0%N) (registered (s_log s)) /\ ch_client (s_ch s 0) = false /\ ch_client (s_ch s 1) = true /\
  forall m, ~ in_flight (s_log s) m KConnect.
Proof.
  unfold reach. destruct (run xE sys_init y_gone) as [s|] eqn:R; [|vm_compute in R; discriminate]. exists s. split; [reflexivity|].
  assert (Qt : quiet s).
  { vm_compute in R. injection R as <-. unfold quiet. cbn [s_phase]. intros a k K. cbn [s_conns get_conn] in K. destruct (baddr_eqb a _) in K; [injection K as <-; reflexivity|discriminate]. }
  split; [intros rank; split; [revert rank; apply orderly_polled; vm_compute; reflexivity|exact (quiet_rest xE rank _ s R Qt)]|].
  vm_compute in R. injection R as <-. split; [vm_compute; auto|]. split; [vm_compute; reflexivity|]. split; [vm_compute; reflexivity|].
  intros m (o & [c X] & K & _ & _ & N). apply N. revert K X. clear. intros K X. cbn [s_log In] in X. repeat (destruct X as [X|X]; [first [discriminate X|injection X as <- <- <-; first [discriminate K|vm_compute; tauto]]|]). destruct X.
Qed.
