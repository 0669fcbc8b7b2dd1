(** C73: what ends the engine. *)
From Verif Require Import Bytes Errors Wire Proto Codec Address Message SpecMessage Client SpecKeys MessageFacts Engine SpecEngine SpecEngine2 SpecEnd EngineFacts EngineInv EngineReq EngineEv EngineConn EngineLog EngineView EngineQueue EngineRoute EngineGate EngineLife EngineHang EngineEnd EngineEx PropMessage PropEngine PropEngine2 PropEngine3 PropEngine4 PropEngine6.
Open Scope N_scope.

Lemma stop_not s e s' E : inv E s -> trans E s e s' -> s_phase s' <> PStop -> s_phase s <> PStop.
Proof.
  intros I T P X. apply P. apply (i_stop s' (v_s E s' (inv_trans E s e s' I T))). apply (i_stop s (v_s E s I)) in X.
  destruct (trans_log E s e s' T) as (l & -> & _). apply in_app_iff. now left.
Qed.

(** * Clients that are gone *)
Lemma trans_there E s e s' c : hinv s -> trans E s e s' -> ch_client (s_ch s c) = true -> e <> EvDropClient c -> e <> EvCancelReg c -> s_phase s' <> PStop ->
  ch_client (s_ch s' c) = true.
Proof.
  intros Hh T Hc Hne Hnc Hp. pose proof (h_live s Hh c Hc) as Hlt.
  assert (Fw : forall s0 id n o, ch_client (s_ch s0 c) = true -> fwd s0 id n o s' -> ch_client (s_ch s' c) = true).
  { intros s0 id n o X F. destruct (fwd_ch s0 id n o s' c F) as (_ & -> & _). auto. }
  assert (Se : forall s0 a ser i, s_ch s0 c = s_ch s c -> sent s0 a ser i s' -> ch_client (s_ch s' c) = true).
  { intros s0 a ser i X F. destruct F; [pj; rewrite X; auto|]. unfold delivered. pj. pose proof (meta_push i (map rc_h (filter (addressed a i) (s_clients s0))) (s_ch s0) c) as M.
    unfold meta in M. injection M as _ M1 _ _. rewrite M1, X. auto. }
  assert (Tk : forall h q n res dr, ch_client (s_ch (taken s h q n res dr) c) = true).
  { intros. rewrite taken_ch. unfold set_ch. destruct (Nat.eqb_spec c h) as [->|]; cbn; auto. }
  destruct T; try assumption; try (exfalso; apply Hp, stop_phase); try (apply (Se _ _ _ _ eq_refl H0)); try (apply (Se _ _ _ _ eq_refl H4));
    try (exfalso; apply Hp; pj; assumption).
  - pj. unfold set_ch. destruct (Nat.eqb_spec c (s_nh s)); [lia|auto].
  - pj. unfold set_ch. destruct (Nat.eqb_spec c h) as [->|]; auto.
  - pj. unfold set_ch. destruct (Nat.eqb_spec c h) as [->|]; [congruence|auto].
  - pj. unfold set_ch. destruct (Nat.eqb_spec c h) as [->|]; auto.
  - pj. unfold set_ch. destruct (Nat.eqb_spec c h) as [->|]; auto.
  - pj. unfold set_ch. destruct (Nat.eqb_spec c h) as [->|]; [congruence|auto].
  - eapply Fw; [|eassumption]; apply Tk.
  - apply Tk.
  - apply Tk.
  - eapply Fw; [|eassumption]; rewrite moved_ch; apply Tk.
  - eapply Fw; [|eassumption]; now rewrite moved_ch.
  - eapply Fw; [|eassumption]; now rewrite moved_ch.
  - eapply Se; [|eassumption]; reflexivity.
  - eapply Se; [|eassumption]; reflexivity.
Qed.
Lemma trans_hs E s e s' : trans E s e s' -> forall c, In c (map rc_h (s_clients s') ++ regq_handles s') ->
  In c (map rc_h (s_clients s) ++ regq_handles s) \/ ch_client (s_ch s' c) = true.
Proof.
  intros T. assert (FW : forall s0 id n o s1, fwd s0 id n o s1 -> map rc_h (s_clients s1) ++ regq_handles s1 = map rc_h (s_clients s0) ++ regq_handles s0).
  { intros s0 id n o s1 F. destruct F; [reflexivity|]. rewrite stop_eq. reflexivity. }
  assert (SE : forall s0 a ser i s1, sent s0 a ser i s1 -> map rc_h (s_clients s1) ++ regq_handles s1 = map rc_h (s_clients s0) ++ regq_handles s0).
  { intros s0 a ser i s1 F. destruct F; reflexivity. }
  destruct T; intros y Hy; try (left; exact Hy); try (left; rewrite stop_eq in Hy; exact Hy);
    try (match goal with F : fwd _ _ _ _ _ |- _ => rewrite (FW _ _ _ _ _ F) in Hy end; unfold regq_handles in Hy; rewrite ?moved_h, ?moved_regq in Hy; left; exact Hy);
    try (match goal with F : sent _ _ _ _ _ |- _ => rewrite (SE _ _ _ _ _ F) in Hy end; left; exact Hy).
  - unfold regq_handles in *. pj. cbn [s_clients s_regq with_regs upd_ch with_ch with_ids] in Hy. rewrite map_app, !in_app_iff in Hy. cbn in Hy. rewrite in_app_iff. unfold set_ch.
    destruct Hy as [Hy|[Hy|[<-|[]]]]; auto. right. rewrite Nat.eqb_refl. reflexivity.
  - left. unfold regq_handles in *. rewrite H0. cbn in Hy. rewrite map_app, !in_app_iff in Hy. cbn in Hy. rewrite in_app_iff. cbn. tauto.
  - left. rewrite stop_eq in Hy. unfold regq_handles in *. rewrite H0. cbn in Hy. rewrite map_app, !in_app_iff in Hy. cbn in Hy. rewrite in_app_iff. cbn. tauto.
Qed.
Lemma gone_cause E h s c : reach E h s -> s_phase s <> PStop -> In c (map rc_h (s_clients s) ++ regq_handles s) -> ch_client (s_ch s c) = false ->
  In (EvDropClient c) h \/ In (EvCancelReg c) h.
Proof.
  intros R. revert c. assert (G : inv E s /\ (s_phase s <> PStop -> forall c, In c (map rc_h (s_clients s) ++ regq_handles s) -> ch_client (s_ch s c) = false -> In (EvDropClient c) h \/ In (EvCancelReg c) h)).
  { refine (proj2 (run_ind E (fun h s => inv E s /\ (s_phase s <> PStop -> forall c, In c (map rc_h (s_clients s) ++ regq_handles s) -> ch_client (s_ch s c) = false -> In (EvDropClient c) h \/ In (EvCancelReg c) h)) sys_init (wf_init E) _ _ h s R)).
    - split; [apply inv_init|]. intros _ c [].
    - intros g t e t' _ _ [V IH] S T _. split; [exact (inv_trans E t e t' V T)|]. intros P c Hc Hf.
      rewrite !in_app_iff. pose proof (stop_not t e t' E V T P) as P0.
      destruct (trans_hs E t e t' T c Hc) as [Y|Y]; [|congruence].
      destruct (ch_client (s_ch t c)) eqn:X; [|destruct (IH P0 c Y X); auto].
      destruct e; try (exfalso; rewrite (trans_there E t _ t' c (v_h E t V) T X) in Hf; [discriminate|discriminate|discriminate|exact P]).
      + destruct (Nat.eq_dec h0 c) as [->|Z]; [right; right; now left|].
        exfalso. rewrite (trans_there E t _ t' c (v_h E t V) T X) in Hf; [discriminate|discriminate|congruence|exact P].
      + destruct (Nat.eq_dec h0 c) as [->|Z]; [left; right; now left|].
        exfalso. rewrite (trans_there E t _ t' c (v_h E t V) T X) in Hf; [discriminate|congruence|discriminate|exact P]. }
  intros c P. now apply (proj2 G).
Qed.

(** * The manager *)
Lemma trans_mgr E s e s' : trans E s e s' -> e <> EvDropManager -> s_mgr s' = s_mgr s.
Proof.
  assert (FW : forall s0 id n o s1, fwd s0 id n o s1 -> s_mgr s1 = s_mgr s0).
  { intros s0 id n o s1 F. destruct F; [reflexivity|]. rewrite stop_eq. reflexivity. }
  assert (SE : forall s0 a ser i s1, sent s0 a ser i s1 -> s_mgr s1 = s_mgr s0).
  { intros s0 a ser i s1 F. destruct F; reflexivity. }
  intros T N. destruct T; try congruence; try reflexivity; try (rewrite stop_eq; reflexivity); try (pj; congruence);
    try (match goal with F : fwd _ _ _ _ _ |- _ => rewrite (FW _ _ _ _ _ F) end; rewrite ?moved_mgr; reflexivity);
    try (match goal with F : sent _ _ _ _ _ |- _ => rewrite (SE _ _ _ _ _ F) end; reflexivity).
  - rewrite stop_eq. pj. congruence.
Qed.
Lemma mgr_cause E h s : reach E h s -> s_mgr s = false -> In EvDropManager h.
Proof.
  intros R. refine (proj2 (run_ind E (fun h s => s_mgr s = false -> In EvDropManager h) sys_init (wf_init E) _ _ h s R)); [discriminate|].
  intros g t e t' _ _ IH _ T _ H. apply in_app_iff.
  assert (D : e = EvDropManager \/ e <> EvDropManager) by (destruct e; auto; right; discriminate).
  destruct D as [->|D]; [right; now left|]. left. apply IH. now rewrite <- (trans_mgr E t e t' T D).
Qed.
(** While the engine runs: registrations queued and confirmations unclaimed match the
    calls waiting and those cancelled. *)
Definition cancels (h : list event) : nat := length (filter (fun e => match e with EvCancelReg _ => true | _ => false end) h).
Record ginv (h : list event) (s : sys) : Prop := mk_ginv {
  gi_nd : NoDup (s_waiting s);
  gi_lt : forall c, In c (s_waiting s) -> (c < s_nh s)%nat;
  gi_cnt : s_phase s <> PStop -> (length (s_regq s) + s_acks s = length (s_waiting s) + cancels h)%nat }.
Lemma remove_h_in h l x : In x (remove_h h l) <-> In x l /\ x <> h.
Proof. unfold remove_h. rewrite filter_In. destruct (Nat.eqb_spec x h); cbn; split; intros [A B]; split; auto; congruence. Qed.
Lemma remove_h_nd h l : NoDup l -> NoDup (remove_h h l).
Proof. apply NoDup_filter. Qed.
Lemma remove_h_none h l : ~ In h l -> remove_h h l = l.
Proof.
  induction l as [|x l IH]; intros H; [reflexivity|]. unfold remove_h in *. cbn. destruct (Nat.eqb_spec x h) as [->|]; [exfalso; apply H; now left|].
  cbn. f_equal. apply IH. intros X. apply H. now right.
Qed.
Lemma remove_h_len h l : NoDup l -> In h l -> (length (remove_h h l) + 1 = length l)%nat.
Proof.
  induction l as [|x l IH]; intros N H; [destruct H|]. inversion N; subst. unfold remove_h. cbn. destruct (Nat.eqb_spec x h) as [->|Hx]; cbn.
  - fold (remove_h h l). rewrite (remove_h_none h l) by auto. lia.
  - destruct H as [->|H]; [congruence|]. fold (remove_h h l). rewrite <- IH by auto. lia.
Qed.
Lemma trans_nh E s e s' : trans E s e s' -> (s_nh s <= s_nh s')%nat.
Proof.
  assert (FW : forall s0 id n o s1, fwd s0 id n o s1 -> s_nh s1 = s_nh s0).
  { intros s0 id n o s1 F. destruct F; [reflexivity|]. rewrite stop_eq. reflexivity. }
  assert (SE : forall s0 a ser i s1, sent s0 a ser i s1 -> s_nh s1 = s_nh s0).
  { intros s0 a ser i s1 F. destruct F; reflexivity. }
  intros T. destruct T; try (apply Nat.le_refl); try (rewrite stop_eq; apply Nat.le_refl);
    try (match goal with F : fwd _ _ _ _ _ |- _ => rewrite (FW _ _ _ _ _ F) end; rewrite ?moved_nh; apply Nat.le_refl);
    try (match goal with F : sent _ _ _ _ _ |- _ => rewrite (SE _ _ _ _ _ F) end; apply Nat.le_refl);
    pj; lia.
Qed.
Lemma cancels_snoc h e : cancels (h ++ [e]) = (cancels h + match e with EvCancelReg _ => 1 | _ => 0 end)%nat.
Proof. unfold cancels. rewrite filter_app, app_length. f_equal. now destruct e. Qed.
Lemma ginv_trans E h s e s' : inv E s -> ginv h s -> trans E s e s' -> ginv (h ++ [e]) s'.
Proof.
  intros V G T. pose proof (trans_nh E s e s' T) as Hnh. pose proof (stop_not s e s' E V T) as NP.
  destruct (manages e) eqn:M.
  2:{ pose proof (regs_trans E s e s' T M) as R. unfold regs in R. injection R as R1 R2 R3. destruct G as [G1 G2 G3].
      constructor; rewrite ?R1, ?R2, ?R3, ?cancels_snoc; auto; [intros c Hc; specialize (G2 c Hc); lia|].
      intros P. rewrite (G3 (NP P)). destruct e; try discriminate M; lia. }
  destruct G as [G1 G2 G3]. destruct T; try discriminate M; try (constructor; rewrite ?cancels_snoc; pj; auto; fail).
  - constructor; rewrite ?cancels_snoc; pj.
    + apply NoDup_snoc; auto. intros X. apply G2 in X. lia.
    + intros c X. apply in_app_iff in X as [X|[<-|[]]]; [apply G2 in X|]; lia.
    + intros P. rewrite !app_length. cbn. specialize (G3 P). lia.
  - constructor; rewrite ?cancels_snoc; pj; auto; [intros c X; apply G2 in X; lia|]. intros P; exfalso; apply P; first [assumption|reflexivity].
  - apply is_in_spec in H. constructor; rewrite ?cancels_snoc; pj.
    + now apply remove_h_nd.
    + intros c X. apply remove_h_in in X as [X _]. auto.
    + intros P. specialize (G3 P). pose proof (remove_h_len h0 _ G1 H). lia.
  - apply is_in_spec in H. constructor; rewrite ?cancels_snoc; pj.
    + now apply remove_h_nd.
    + intros c X. apply remove_h_in in X as [X _]. auto.
    + intros P; exfalso; apply P; assumption.
  - apply is_in_spec in H. constructor; rewrite ?cancels_snoc; pj.
    + now apply remove_h_nd.
    + intros c X. apply remove_h_in in X as [X _]. auto.
    + intros P. specialize (G3 P). pose proof (remove_h_len h0 _ G1 H). lia.
  - constructor; rewrite ?cancels_snoc; pj; auto. intros P. specialize (G3 (NP P)). rewrite H0 in G3. cbn in G3. lia.
  - rewrite stop_eq in *. constructor; rewrite ?cancels_snoc; pj; auto. intros P; exfalso; apply P; first [assumption|reflexivity].
  - rewrite stop_eq in *. constructor; rewrite ?cancels_snoc; pj; auto. intros P; exfalso; apply P; first [assumption|reflexivity].
  - constructor; rewrite ?cancels_snoc; pj; auto. intros P. specialize (G3 P). lia.
Qed.
Lemma reach_ginv E h s : reach E h s -> ginv h s.
Proof.
  intros R. refine (proj2 (proj2 (run_ind E (fun h s => inv E s /\ ginv h s) sys_init (wf_init E) _ _ h s R))).
  - split; [apply inv_init|]. constructor; [constructor|intros c []|reflexivity].
  - intros g t e t' _ _ [V G] _ T _. split; [exact (inv_trans E t e t' V T)|exact (ginv_trans E g t e t' V G T)].
Qed.

(** * Connections that are gone *)
Lemma conn_origin E s e s' a k' : wf E s -> trans E s e s' -> get_conn a (s_conns s') = Some k' -> k_alive k' = false ->
  exists k, get_conn a (s_conns s) = Some k.
Proof.
  intros W T K A. destruct (get_conn a (s_conns s)) as [k|] eqn:X; [eauto|]. exfalso.
  assert (PU : forall l b kb k0, get_conn a l = None -> get_conn b l = Some k0 -> get_conn a (set_conn b kb l) = None).
  { intros l b kb k0 N Hb. rewrite get_set. destruct (baddr_eqb b a) eqn:Y; auto. apply baddr_eqb_spec in Y. congruence. }
  assert (FW : forall s0 id n o s1, fwd s0 id n o s1 -> get_conn a (s_conns s0) = None -> get_conn a (s_conns s1) = None).
  { intros s0 id n o s1 F N. destruct F; [pj; now apply PU with k|now rewrite stop_conns]. }
  assert (FN : forall s0 id n o s1 b, fwd s0 id n o s1 -> (forall k, get_conn a (s_conns s0) = Some k -> k_alive k = true) -> get_conn a (s_conns s1) = Some b -> k_alive b = true).
  { intros s0 id n o s1 b F N. destruct F; [|rewrite stop_conns; auto]. pj. rewrite get_set. destruct (baddr_eqb _ a); [intros [= <-]; reflexivity|auto]. }
  destruct T; rewrite ?stop_conns in K; try (revert K; pj; rewrite X; discriminate);
    try (match goal with F : fwd _ _ _ _ _ |- _ => rewrite (FW _ _ _ _ _ F) in K; [discriminate|]; rewrite ?moved_conns; exact X end);
    try (match goal with F : sent _ _ _ _ _ |- _ => rewrite (sent_conn _ _ _ _ _ a F) in K end; revert K; pj; first [rewrite X; discriminate|rewrite (PU _ _ _ _ X H1); discriminate]);
    try (match goal with Hk : get_conn ?b (s_conns s) = Some ?k |- _ => cbn [s_conns say with_phase put_conn with_conns dead popped with_counts] in K; rewrite ?set_twice in K; rewrite (PU _ _ _ k X Hk) in K; discriminate end).
  - cbn [s_conns say with_phase put_conn with_conns] in K. rewrite get_set in K. destruct (baddr_eqb _ a); [injection K as <-; discriminate|congruence].
  - rewrite (FN _ _ _ _ _ k' H0) in A; [discriminate| |exact K]. rewrite moved_conns. pj. intros k. rewrite get_set. destruct (baddr_eqb _ a); [intros [= <-]; reflexivity|congruence].
Qed.
Lemma reach_split E h e s : reach E (h ++ [e]) s -> exists s1, reach E h s1 /\ step E s1 e = Some s.
Proof.
  unfold reach. rewrite run_app. destruct (run E sys_init h) as [s1|]; [|discriminate]. cbn [run]. destruct (step E s1 e) as [s2|] eqn:S; [|discriminate].
  intros [= <-]. eauto.
Qed.
(** While the engine has not ended, a connection is gone only if it has been broken. *)
Theorem C73_connection_gone : forall E h s a k, reach E h s -> ~ In OStop (s_log s) -> get_conn a (s_conns s) = Some k -> k_alive k = false -> broken E h a.
Proof.
  intros E h. induction h as [|e h IH] using rev_ind; intros s a k R N K A; [injection R as <-; discriminate|].
  apply reach_split in R as (s1 & R1 & S). pose proof (reach_all E h s1 R1) as V. pose proof (step_trans E s1 e s (v_wf E s1 V) S) as T.
  assert (N1 : ~ In OStop (s_log s1)) by (intros X; apply N; destruct (trans_log E s1 e s T) as (l & -> & _); apply in_app_iff; now left).
  destruct (conn_origin E s1 e s a k (v_wf E s1 V) T K A) as (k1 & K1). destruct (k_alive k1) eqn:A1.
  - exists h, e, [], s1. split; [reflexivity|]. split; [exact R1|].
    destruct (C55_ends_for_a_reason E h s1 e s a k1 k R1 S K1 A1 K A) as [X|[X|[(mc & X & [Y|(Y & _)])|(now & io & X & [(n & o & rest & Y & Z)|(Y & _)])]]]; [left; auto|right; left; auto| |contradiction| |contradiction].
    + right. right. left. eauto.
    + right. right. right. exists now, io, n, o, rest. auto.
  - destruct (IH s1 a k1 R1 N1 K1 A1) as (h1 & e1 & h2 & t & -> & X). exists h1, e1, (h2 ++ [e]), t. split; [now rewrite <- app_assoc|exact X].
Qed.
Print Assumptions C73_connection_gone.

(** One step: the state shows the cause. *)
Definition stopping (s s' : sys) : Prop := ~ In OStop (s_log s) /\ In OStop (s_log s').
Lemma fwd_stops s id n o s' l : fwd s id n o s' -> s_log s = l -> ~ In OStop l -> In OStop (s_log s') ->
  exists x k, get_client id (s_clients s) = Some x /\ get_conn (rc_addr x) (s_conns s) = Some k /\ k_alive k = false.
Proof.
  intros F <- N H. destruct F as [c k Hc Hk Ha|c k Hc Hk Ha]; [|eauto]. exfalso. revert H. pj. rewrite in_app_iff. cbn. intros [H|[H|[]]]; [auto|discriminate].
Qed.
Lemma moved_stop E s id c : In OStop (s_log (moved E s id c)) <-> In OStop (s_log s).
Proof. now rewrite moved_log. Qed.
Lemma sent_no_stop s a ser i s' : sent s a ser i s' -> In OStop (s_log s') -> In OStop (s_log s).
Proof. intros F. destruct F; pj; auto. rewrite in_app_iff. cbn. intros [X|[X|[]]]; [auto|discriminate]. Qed.
Lemma cancel_no_stop ns : ~ In OStop (cancel_all ns).
Proof. intros H. apply cancel_all_cancel in H as [? ?]. discriminate. Qed.
Lemma ends_no_stop hs f : ~ In OStop (ends_log hs f).
Proof. intros H. apply ends_log_cancel in H as [? ?]. discriminate. Qed.
Lemma taken_no_stop s h q n res dropped : ~ In OStop (s_log s) -> ~ In OStop (s_log (taken s h q n res dropped)).
Proof. intros N. rewrite taken_log, in_app_iff. cbn. intros [H|[H|H]]; [auto|discriminate|now apply cancel_no_stop in H]. Qed.
Lemma registered_client E h s x : reach E h s -> In x (s_clients s) -> exists id, In (rc_h x, id) (registered (s_log s)).
Proof. intros H X. exists (rc_id x). rewrite (g_reg s (reach_gate E h s H)). apply in_map_iff. eauto. Qed.
Lemma all_taken E h s c : reach E h s -> ch_up (s_ch s c) = [] -> forall n o, In (OIssue c n o) (s_log s) -> In n (takes (s_log s)).
Proof.
  intros H U n o Hi. destruct (reach_queues E h s H) as [Q _]. pose proof (q_up s Q c) as X. rewrite U in X. cbn in X. rewrite app_nil_r in X.
  assert (Y : In n (issued c (s_log s))) by (apply in_flat_map; exists (OIssue c n o); split; auto; rewrite Nat.eqb_refl; now left).
  rewrite X in Y. apply filter_In in Y. tauto.
Qed.
Lemma step_cause E h s e s' : reach E h s -> step E s e = Some s' -> ~ In OStop (s_log s) -> In OStop (s_log s') -> end_cause E h (s_log s) e.
Proof.
  intros R S N H. pose proof (reach_all E h s R) as V. pose proof (step_trans E s e s' (v_wf E s V) S) as T.
  assert (NP : s_phase s <> PStop) by (intros X; apply N; now apply (i_stop s (v_s E s V))).
  assert (LOST : forall a k ev, get_conn a (s_conns s) = Some k -> k_alive k = false ->
     ev = EvConn a \/ ev = EvAnswered \/ (exists c, ev = EvClient c) \/ (exists d, ev = EvAuth (Ok d)) -> end_cause E h (s_log s) ev).
  { intros a k ev K A X. apply (end_lost E h (s_log s) a ev); auto. exact (C73_connection_gone E h s a k R N K A). }
  assert (ONE : forall x, x <> OStop -> ~ In OStop (s_log s ++ [x])) by (intros x X; rewrite in_app_iff; cbn; intros [Y|[Y|[]]]; congruence).
  assert (NIL : ~ In OStop (s_log s ++ [])) by now rewrite app_nil_r.
  rename H into HS. destruct T;
    try (exfalso; revert HS; pj; first [exact N|apply ONE; discriminate]; fail);
    try (constructor; auto; fail).
  - exfalso. revert HS. pj. rewrite in_app_iff. intros [Y|Y]; [auto|now apply ends_no_stop in Y].
  - exfalso. revert HS. pj. rewrite in_app_iff. destruct (ch_engine (s_ch s h0)); [cbn; tauto|]. intros [Y|Y]; [auto|now apply cancel_no_stop in Y].
  - destruct (fwd_stops _ _ _ _ _ _ H5 eq_refl (taken_no_stop s _ _ _ _ _ N) HS) as (x & k & X & K & A). apply (LOST (rc_addr x) k); eauto.
  - exfalso. revert HS. pj. intros Y. now apply (taken_no_stop s h0 q n res dropped N).
  - exfalso. revert HS. pj. intros Y. now apply (taken_no_stop s h0 q n res dropped N).
  - destruct (fwd_stops _ _ _ _ _ _ H6 eq_refl) as (x & k & X & K & A); [rewrite moved_log; now apply taken_no_stop|exact HS|]. rewrite moved_conns in K. apply (LOST (rc_addr x) k); eauto.
  - destruct (registered_client E h s c R H0) as [id Hid]. rewrite H1 in Hid. apply (end_left E h _ h0 id); auto; [|exact (all_taken E h s h0 R H2)].
    apply (gone_cause E h s h0 R NP); auto. apply in_app_iff. left. rewrite <- H1. now apply in_map.
  - destruct (fwd_stops _ _ _ _ _ _ H1 eq_refl) as (x & k & X & K & A); [rewrite moved_log; pj; apply ONE; discriminate|exact HS|]. rewrite moved_conns in K. apply (LOST (rc_addr x) k); eauto 6.
  - exfalso. destruct (fwd_stops _ _ _ _ _ _ H0 eq_refl) as (x & k & X & K & A); [rewrite moved_log; pj; apply ONE; discriminate|exact HS|].
    pose proof (wf_dial E s (v_wf E s V)) as D. rewrite H in D. pose proof (wf_cfg E s (v_wf E s V)) as G.
    rewrite moved_conns in K. unfold moved in X. destruct (baddr_eqb (caddr E c) (broker_address (e_cfg E))) eqn:Y.
    { apply baddr_eqb_spec in Y. apply G; [rewrite H; discriminate|rewrite H; discriminate|rewrite <- Y; exact D]. }
    pose proof (wf_phase E s (v_wf E s V)) as P. rewrite H in P. destruct P as [y P].
    destruct (get_client_move id _ y id (caddr E c) P) as (y' & P1 & _ & P2). rewrite N.eqb_refl in P2.
    assert (XX : get_client id (move_client id (caddr E c) (s_clients s)) = Some x) by exact X. rewrite P1 in XX. injection XX as <-. rewrite P2 in K. revert K. pj. rewrite get_set_same. intros [= <-]. discriminate.
  - exfalso. apply sent_no_stop in H0; auto. revert H0. pj. apply ONE. discriminate.
  - destruct (l_lost s (reach_linv E h s R) _ _ H) as (k & K & A). apply (LOST a k); auto.
  - exfalso. revert HS. pj. rewrite in_app_iff. cbn. intros [Y|[Y|[Y|[]]]]; [auto|discriminate|discriminate].
  - apply (LOST a k); auto.
  - exfalso. apply sent_no_stop in H4; auto. revert H4. pj. apply ONE. discriminate.
  - apply (LOST a k); auto.
  - assert (C : (0 < cancels h)%nat) by (pose proof (gi_cnt h s (reach_ginv E h s R) NP) as G; rewrite H0, (h_mgr s (v_h E s V) H1) in G; cbn in G; lia).
    unfold cancels in C. destruct (filter _ h) as [|e r] eqn:F; [cbn in C; lia|].
    assert (X : In e (filter (fun e => match e with EvCancelReg _ => true | _ => false end) h)) by (rewrite F; now left).
    apply filter_In in X as [X Y]. destruct e; try discriminate. apply (end_cancelled E h _ h1); auto. exact (mgr_cause E h s R H1).
  - apply end_unused; [exact (mgr_cause E h s R H1)|]. rewrite (g_reg s (reach_gate E h s R)). unfold pairs. now rewrite H2.
Qed.

Lemma in_dec_stop l : In OStop l \/ ~ In OStop l.
Proof.
  induction l as [|x l [IH|IH]]; [now right|left; now right|]. destruct x; try (right; intros [X|X]; [discriminate|auto]; fail). left. now left.
Qed.
Lemma mgr_dropped E h s : reach E h s -> In EvDropManager h -> s_mgr s = false.
Proof.
  intros R. refine (proj2 (run_ind E (fun h s => In EvDropManager h -> s_mgr s = false) sys_init (wf_init E) _ _ h s R)); [intros []|].
  intros g t e t' _ _ IH _ T _ H. assert (D : e = EvDropManager \/ e <> EvDropManager) by (destruct e; auto; right; discriminate).
  destruct D as [->|D]; [inversion T; reflexivity|]. apply in_app_iff in H as [H|[H|[]]]; [|congruence]. rewrite (trans_mgr E t e t' T D). auto.
Qed.
(** C73: if the engine has ended, one event ended it, and for one of these causes. *)
Theorem C73_ends_for_a_reason : forall E h s, reach E h s -> In OStop (s_log s) ->
  exists h1 e h2 s1 s2, h = h1 ++ e :: h2 /\ reach E h1 s1 /\ step E s1 e = Some s2 /\ ~ In OStop (s_log s1) /\ In OStop (s_log s2) /\
    end_cause E h1 (s_log s1) e.
Proof.
  intros E h. induction h as [|e h IH] using rev_ind; intros s R H; [injection R as <-; destruct H|].
  apply reach_split in R as (s1 & R1 & S).
  assert (D : In OStop (s_log s1) \/ ~ In OStop (s_log s1)) by (apply in_dec_stop).
  destruct D as [D|D].
  - destruct (IH s1 R1 D) as (h1 & e1 & h2 & t1 & t2 & -> & X). exists h1, e1, (h2 ++ [e]), t1, t2. split; [now rewrite <- app_assoc|exact X].
  - exists h, e, [], s1, s. split; [reflexivity|]. split; [exact R1|]. split; [exact S|]. split; [exact D|]. split; [exact H|].
    exact (step_cause E h s1 e s R1 S D H).
Qed.
Print Assumptions C73_ends_for_a_reason.

(** So as long as no connection breaks, no dial or authentication fails and nobody gives
    up a client, a registration or the manager, the engine does not end, whatever
    the brokers send and whatever the clients do. *)
Theorem C73_stays_up : forall E h s, reach E h s -> (forall a, ~ broken E h a) -> (forall e, In e h -> ~ gives_up e) -> ~ In OStop (s_log s).
Proof.
  intros E h s R B G H. destruct (C73_ends_for_a_reason E h s R H) as (h1 & e & h2 & s1 & s2 & -> & R1 & _ & _ & _ & C).
  assert (G1 : forall x, In x h1 -> ~ gives_up x) by (intros x X; apply G, in_app_iff; now left).
  assert (Ge : ~ gives_up e) by (apply G, in_elt).
  inversion C; subst; cbn in Ge; auto.
  - destruct H1 as [X|X]; exact (G1 _ X I).
  - exact (G1 _ H0 I).
  - exact (G1 _ H0 I).
  - apply (B a). destruct H0 as (g1 & x & g2 & t & -> & X). exists g1, x, (g2 ++ e :: h2), t. split; [now rewrite <- app_assoc|exact X].
Qed.
Print Assumptions C73_stays_up.
(** Writing breaks no connection as long as the requests of the clients and the
    credentials are of sensible size. *)
Theorem C73_writing_breaks_nothing : forall E s a now io, now < 2 ^ 64 ->
  (forall n o, In (n, o) (unwritten a (s_log s)) -> sendable_request o) -> ~ breaks E s a (EvWrite a now io).
Proof.
  intros E s a now io Hn Ok [X|[X|[(mc & X & _)|(now' & io' & n & o & rest & X & U & P)]]]; try discriminate. injection X as <- <-.
  destruct (Ok n o) as (O1 & O2 & O3); [rewrite U; now left|].
  destruct (C10_requests_reach_the_wire (e_oc E) now o O1 Hn O2 O3) as (mc & b & T & B & _). rewrite T in P. cbn [obind] in P. congruence.
Qed.
Print Assumptions C73_writing_breaks_nothing.
(** Conversely the engine ends when the manager is gone and nobody ever registered:
    whenever it waits for events this is all it can do. *)
Theorem C73_unused_engine_ends : forall E h s, reach E h s -> In EvDropManager h -> registered (s_log s) = [] -> s_phase s = PRun ->
  (exists s', step E s EvReg = Some s' /\ In OStop (s_log s')) /\
  (forall c, step E s (EvClient c) = None) /\ (forall a, step E s (EvConn a) = None).
Proof.
  intros E h s R D G P. pose proof (reach_all E h s R) as V.
  assert (C : s_clients s = []). { rewrite (g_reg s (reach_gate E h s R)) in G. unfold pairs in G. now apply map_eq_nil in G. }
  assert (M : s_mgr s = false) by exact (mgr_dropped E h s R D).
  split; [|split].
  - cbn [step]. rewrite P, M, C. destruct (s_regq s) as [|[[c id] t] q]; (eexists; split; [reflexivity|]); rewrite stop_log_eq, in_app_iff; right; unfold stop_log; now left.
  - intros c. cbn [step]. rewrite P, C. destruct (s_conns s); reflexivity.
  - intros a. cbn [step]. now rewrite P, C.
Qed.
Print Assumptions C73_unused_engine_ends.

(** A broker that sends errors, commands the library does not know, a ping and then
    something that does not decode: the engine goes on. *)
Definition x_rough : list event := x_reg2 ++ x_connect 0%nat ++
  [EvNet xA (f_error 7); EvNet xA (fr 999 []); EvNet xA (f_send_error 0 3); EvNet xA f_ping; EvConn xA; EvWrite xA 0 true; EvIssue 1%nat (x_ack 1); EvClient 1%nat;
   EvWrite xA 0 false; EvNet xA (IErr DecodeFailed)].
Definition mild (e : event) : bool :=
  match e with
  | EvStart false | EvDial false | EvDropClient _ | EvCancelReg _ | EvDropManager | EvAuth _ => false
  | EvNet _ x => match x with IEnd | IPanic => false | IFrame mc => match to_inbound mc with Panic => false | _ => true end | IErr _ => true end
  | _ => true
  end.
(** No command in the queue of [xA] makes its conversion panic when it is written. *)
Fixpoint writes_fine (s : sys) (h : list event) : bool :=
  match h with
  | [] => true
  | e :: r =>
      match e with
      | EvWrite a now _ => match unwritten a (s_log s) with (_, o) :: _ => match obind (to_cmd now o) (encode true) with Panic => false | _ => true end | [] => true end
      | _ => true
      end && match step xE s e with Some s1 => writes_fine s1 r | None => false end
  end.
Lemma writes_fine_at h1 : forall s e h2 s1, writes_fine s (h1 ++ e :: h2) = true -> run xE s h1 = Some s1 -> forall a now io n o rest,
  e = EvWrite a now io -> unwritten a (s_log s1) = (n, o) :: rest -> obind (to_cmd now o) (encode true) <> Panic.
Proof.
  induction h1 as [|x h1 IH]; intros s e h2 s1 W R a now io n o rest Ee U P; cbn [app writes_fine run] in *.
  - injection R as <-. subst e. rewrite U, P in W. discriminate.
  - destruct (step xE s x) as [t|]; [|discriminate]. apply andb_prop in W as [_ W]. exact (IH t e h2 s1 W R a now io n o rest Ee U P).
Qed.
Lemma mild_not e : mild e = true -> ~ gives_up e.
Proof. destruct e as [| | | | | | | | [|] | | | [|] | | | | |]; cbn [mild gives_up]; intros H G; try discriminate H; exact G. Qed.
Example C73_meets_rough : exists s, reach xE x_rough s /\ (forall a, ~ broken xE x_rough a) /\ (forall e, In e x_rough -> ~ gives_up e) /\ takes (s_log s) = [0; 1]%nat.
Proof.
  assert (M : forallb mild x_rough = true) by (vm_compute; reflexivity). rewrite forallb_forall in M.
  assert (W : writes_fine sys_init x_rough = true) by (vm_compute; reflexivity).
  destruct (xwit x_rough (fun l => takes l = [0; 1]%nat)) as (s & R & X); [vm_compute; reflexivity|].
  exists s. split; [exact R|]. split; [|split; [intros e He; apply mild_not, M, He|exact X]].
  intros a (h1 & e & h2 & s1 & Eh & R1 & B).
  assert (Hm : mild e = true) by (apply M; rewrite Eh; apply in_elt).
  destruct B as [Ee|[Ee|[(mc & Ee & P)|(now & io & n & o & rest & Ee & U & P)]]]; rewrite ?Ee in Hm; cbn [mild] in Hm; try discriminate Hm.
  - rewrite P in Hm. discriminate Hm.
  - rewrite Eh in W. exact (writes_fine_at h1 sys_init e h2 s1 W R1 a now io n o rest Ee U P).
Qed.
(** Every cause occurs. *)
Definition ended_by (h : list event) (e : event) : bool :=
  match run xE sys_init h with
  | Some s => negb (existsb (fun x => match x with OStop => true | _ => false end) (s_log s)) &&
      match step xE s e with Some s' => existsb (fun x => match x with OStop => true | _ => false end) (s_log s') | None => false end
  | None => false
  end.
Example C73_meets :
  ended_by [] (EvStart false) = true /\
  ended_by (x_reg2 ++ [EvDropClient 0%nat]) (EvClient 0%nat) = true /\
  ended_by [EvDropManager; EvStart true] EvReg = true /\
  ended_by (x_reg2 ++ [EvNewId; EvRegister 2 (str "t"); EvCancelReg 2%nat; EvDropManager]) EvReg = true /\
  ended_by (x_reg2 ++ [EvNet xA IEnd]) (EvConn xA) = true /\
  ended_by (x_reg2 ++ [EvNet xA IEnd; EvIssue 1%nat (x_ack 1)]) (EvClient 1%nat) = true /\
  ended_by (x_reg2 ++ [EvIssue 0%nat (OConnect (mk_connect None None None)); EvClient 0%nat; EvWrite xA 0 true; EvNet xA IEnd]) EvAnswered = true /\
  ended_by (x_reg2 ++ [EvIssue 0%nat (OConnect (mk_connect None None (Some (Proxy [] (str "pulsar://c:1"))))); EvClient 0%nat]) (EvDial false) = true.
Proof. vm_compute. conjs; reflexivity. Qed.
