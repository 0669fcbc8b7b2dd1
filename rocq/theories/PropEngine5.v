(** C54: a connection that ends while a connect is queued for it. *)
From Verif Require Import Bytes Errors Wire Proto Codec Address Message SpecMessage Client SpecKeys MessageFacts Engine SpecEngine SpecEngine2 EngineFacts EngineInv EngineReq EngineEv EngineConn EngineLog EngineView EngineQueue EngineRoute EngineGate EngineLife EngineHang EngineEx PropMessage PropEngine PropEngine2 PropEngine3.
Open Scope N_scope.

(** * Specification
    Connect [n] has been queued for connection [a], has not completed, the engine
    has not ended, but the task of connection [a] has. *)
Definition lost_while_connecting (s : sys) (n : nat) (a : baddr) (k : conn) : Prop :=
  (exists c, In (OForward n a (OConnect c)) (s_log s)) /\ ~ In n (settled (s_log s)) /\ ~ In OStop (s_log s) /\
  get_conn a (s_conns s) = Some k /\ k_alive k = false.
(** Connection [a] never took it from its queue. *)
Definition left_behind (n : nat) (k : conn) : Prop := exists x, In x (k_e2n k) /\ ci_src x = Some n.
(** Something the engine does, or a request that completes. *)
Definition by_engine (x : obs) : bool :=
  match x with
  | OTake _ | OAuthed _ _ | ODial _ _ | OForward _ _ _ | OPonged _ | OHandle _ _ _ | OAnswer _ _ _ | OCancel _ | OReg _ _ | OFault | OStop => true
  | _ => false
  end.

Lemma left_qsrc n k : left_behind n k <-> In n (qsrc (k_e2n k)).
Proof.
  unfold qsrc. rewrite in_flat_map. split.
  - intros (x & Hx & Hs). exists x. rewrite Hs. split; auto. now left.
  - intros (x & Hx & Hs). exists x. destruct (ci_src x); [|destruct Hs]. destruct Hs as [->|[]]. auto.
Qed.
Lemma lost_phase E h s n a k : reach E h s -> lost_while_connecting s n a k ->
  r_find kconnect (s_res s) = Some n /\ exists w, s_phase s = PConn a n w /\ (left_behind n k <-> w = Waiting).
Proof.
  intros H ((c & Hf) & Hns & Hst & Hk & Ha). pose proof (reach_all E h s H) as V. pose proof (v_c E s V) as C. pose proof (v_r E s V) as R.
  pose proof (reach_winv E h s H) as W.
  destruct (c_fw E s C n a _ Hf) as (Ht & q & Hq & Hfo).
  assert (Q : exists r, q = OConnect r) by (destruct q; try discriminate Hfo; eauto). destruct Q as [r ->].
  assert (F : r_find kconnect (s_res s) = Some n).
  { destruct (r_done s R n _ Ht Hq eq_refl) as [X|X]; [contradiction|]. apply in_map_iff in X as ([key m] & <- & X).
    pose proof (r_res s R key m X) as (o & Ho & _ & Hkey & _).
    destruct Hq as [c1 Hq]. destruct Ho as [c2 Ho]. destruct (r_uniq s R _ _ _ _ _ Hq Ho) as [_ <-]. injection Hkey as <-.
    apply (r_find_nodup _ _ _ (r_keys s R) X). }
  split; auto. pose proof (c_ph E s C) as P. unfold phase_ok in P. pose proof (w_ph s W) as Q. destruct (s_phase s) as [| |id m r0|id m r0|b m w|] eqn:Hp.
  - congruence.
  - congruence.
  - destruct P as (P & _ & P' & _). assert (m = n) as -> by congruence. exfalso. eapply P'; eauto.
  - destruct P as (P & _ & P' & _). assert (m = n) as -> by congruence. exfalso. eapply P'; eauto.
  - destruct P as (P & (r1 & P1) & _). assert (m = n) as -> by congruence. destruct (c_fw1 E s C _ _ _ _ _ P1 Hf) as [-> _].
    exists w. split; auto. rewrite left_qsrc. destruct Q as (k0 & Hk0 & Q). rewrite Hk in Hk0. injection Hk0 as <-.
    rewrite (w_dead s W a k Hk Ha) in Q. destruct w; cbn in Q; [tauto|split; [tauto|discriminate]|split; [tauto|discriminate]].
  - exfalso. apply Hst. now apply (i_stop s (v_s E s V)).
Qed.

(** While the engine waits nothing is done by it. *)
Lemma quiet_step E s e s' a n k : inv E s -> winv s -> trans E s e s' -> s_phase s = PConn a n Waiting -> get_conn a (s_conns s) = Some k -> k_alive k = false ->
  s_phase s' = PConn a n Waiting /\ (exists k', get_conn a (s_conns s') = Some k' /\ k_alive k' = false) /\
  exists l, s_log s' = s_log s ++ l /\ forallb (fun x => negb (by_engine x)) l = true.
Proof.
  intros V W T Hp Hk Ha. pose proof (v_c E s V) as C.
  destruct (trans_lost E s e s' a k (v_wf E s V) T Hk Ha) as (k1 & k' & _ & Hk' & Ha' & _).
  assert (D : exists k', get_conn a (s_conns s') = Some k' /\ k_alive k' = false) by eauto. clear k1 k' Hk' Ha'.
  assert (WK : forall b k0 ns w, get_conn b (s_conns s) = Some k0 -> k_alive k0 = true -> (forall m, In m ns -> In m (map snd (k_res k0))) ->
            wake_ph ns w (PConn a n Waiting) = PConn a n Waiting).
  { intros b k0 ns w Hb Hb' Hs. destruct (wake_ph_cases ns w (PConn a n Waiting)) as [X|(? & ? & X & Hin & _)]; auto. injection X as <- <-.
    exfalso. pose proof (cinv_owned E s b k0 C Hb a n Waiting Hp (or_introl (Hs _ Hin))). congruence. }
  assert (PI : forall x q k0, In x (k_e2n k0) -> k_e2n k0 = x :: q -> forall b, get_conn b (s_conns s) = Some k0 -> forall m, In m (snd (put_item x (k_res k0))) -> In m (map snd (k_res k0))).
  { intros x q k0 _ Hx b Hb m Hm. destruct (put_item_cases s b k0 x q E C W Hb Hx) as [[X _]|(y & _ & X)]; rewrite X in Hm; [destruct Hm|exact Hm]. }
  destruct T; try congruence;
    try (split; [exact Hp|split; [exact D|]]; (eexists; split; [pj; first [reflexivity|symmetry; apply app_nil_r]|reflexivity])).
  - (* drop client *) split; [exact Hp|split; [exact D|]]. eexists. split; [pj; reflexivity|].
    destruct (ch_engine (s_ch s h)) eqn:X; [reflexivity|]. exfalso.
    apply (i_in s (v_s E s V)) in H. apply in_app_iff in H.
    assert (Y : ch_engine (s_ch s h) = true); [|congruence]. apply (h_engine s (v_h E s V)). rewrite Hp.
    destruct H as [H|H]; [left|right]; (split; [exact H|]); [discriminate|left; discriminate].
  - (* write *) split; [|split; [exact D|eexists; split; [pj; reflexivity|reflexivity]]].
    pj. rewrite Hp. apply (WK a0 k0); auto. refine (PI x q k0 _ H1 a0 H). rewrite H1. now left.
  - (* write, panic *) split; [|split; [exact D|exists []; split; [pj; symmetry; apply app_nil_r|reflexivity]]].
    pj. rewrite Hp. rewrite (WK a0 k0 (snd (put_item x (k_res k0)))); auto; [|refine (PI x q k0 _ H1 a0 H); rewrite H1; now left].
    destruct (put_item_cases s a0 k0 x q E C W H H1) as [[X _]|(y & Y & X)]; rewrite X; cbn [fst].
    + apply (WK a0 k0); auto.
    + destruct (wake_ph_cases (map snd [(kconnect, y)]) Lost (PConn a n Waiting)) as [Z|(? & ? & Z & Hin & _)]; auto. injection Z as <- <-.
      destruct Hin as [Hy|[]]. cbn [snd] in Hy. subst y. exfalso. assert (a = a0); [|congruence]. apply (cinv_owned E s a0 k0 C H a n Waiting Hp). right.
      rewrite H1. change (x :: q) with ([x] ++ q). rewrite qsrc_app, Y. now left.
  - (* net end *) split; [|split; [exact D|exists []; split; [pj; symmetry; apply app_nil_r|reflexivity]]]. pj. rewrite Hp. apply (WK a0 k0); auto.
  - (* resolve *) split; [|split; [exact D|eexists; split; [pj; reflexivity|reflexivity]]]. pj. rewrite Hp. apply (WK a0 k0); auto.
    destruct (resolve_one k0 _ n0 res (w_one s W _ _ H) H3) as [-> _]. auto.
Qed.

(** C54. If the connection ends before taking the connect from its queue, the engine
    hangs: whatever happens afterwards, it does nothing and does not end, and no
    request of any client completes. *)
Theorem C54_engine_hangs : forall E h s n a k, reach E h s -> lost_while_connecting s n a k -> left_behind n k ->
  forall h2 s2, run E s h2 = Some s2 ->
  exists l2, s_log s2 = s_log s ++ l2 /\ forall x, In x l2 -> by_engine x = false.
Proof.
  intros E h s n a k H L B h2 s2 R. destruct (lost_phase E h s n a k H L) as (_ & w & Hp & X). apply X in B. subst w.
  destruct L as (_ & _ & _ & Hk & Ha). pose proof (reach_all E h s H) as V. pose proof (reach_winv E h s H) as W. clear H X h.
  revert s k V W Hp Hk Ha R. induction h2 as [|e h2 IH]; intros s k V W Hp Hk Ha R; cbn [run] in R.
  - injection R as <-. exists []. split; [symmetry; apply app_nil_r|intros x []].
  - destruct (step E s e) as [s1|] eqn:S; [|discriminate]. pose proof (step_trans _ _ _ _ (v_wf E s V) S) as T.
    destruct (quiet_step E s e s1 a n k V W T Hp Hk Ha) as (Hp1 & (k1 & Hk1 & Ha1) & l & El & Hl).
    destruct (IH s1 k1 (inv_trans E s e s1 V T) (winv_trans E s e s1 V W T) Hp1 Hk1 Ha1 R) as (l2 & E2 & Hl2).
    exists (l ++ l2). split; [now rewrite E2, El, app_assoc|]. intros x Hx. apply in_app_iff in Hx as [Hx|Hx]; auto.
    rewrite forallb_forall in Hl. apply Hl in Hx. now destruct (by_engine x).
Qed.
Print Assumptions C54_engine_hangs.
(** If it had taken the connect, the engine can go on: the connect completes, with
    the broker's answer if there was one, or else by the end of the engine. *)
Theorem C54_otherwise_it_completes : forall E h s n a k, reach E h s -> lost_while_connecting s n a k -> ~ left_behind n k ->
  exists s', step E s EvAnswered = Some s' /\ In n (settled (s_log s')) /\
    ((exists ser, In (OAnswer n ser InConnected) (s_log s')) \/ (In OStop (s_log s') /\ In (OCancel n) (s_log s'))).
Proof.
  intros E h s n a k H L B. destruct (lost_phase E h s n a k H L) as (F & w & Hp & X).
  pose proof (reach_all E h s H) as V. cbn [step]. rewrite Hp. destruct w as [|ser i|]; [exfalso; apply B, X; reflexivity| |].
  - pose proof (c_ph E s (v_c E s V)) as P. unfold phase_ok in P. rewrite Hp in P. destruct P as (_ & _ & P). rewrite (P ser i eq_refl).
    eexists. split; [reflexivity|]. unfold manager_send. cbn [ikey]. change (str "CONNECT") with kconnect. unfold r_resolve.
    change (s_res (with_phase (say s [OHandle a ser InConnected]) PRun)) with (s_res s). rewrite F. pj. rewrite !settled_app. split.
    + apply in_app_iff. right. now left.
    + left. exists ser. apply in_app_iff. right. now left.
  - eexists. split; [reflexivity|]. rewrite stop_log_eq. rewrite settled_app. unfold stop_log.
    assert (Y : In n (map snd (s_res s))) by (apply (in_map snd) in F as Y; exact Y) || (apply r_find_in in F; apply (in_map snd) in F; exact F).
    split.
    + apply in_app_iff. right. rewrite settled_app. apply in_app_iff. left.
      change (OStop :: cancel_all (map snd (s_res s))) with ([OStop] ++ cancel_all (map snd (s_res s))). rewrite settled_app, settled_cancel. exact Y.
    + right. split; apply in_app_iff; right; apply in_app_iff; left; [now left|]. right. unfold cancel_all. now apply in_map.
Qed.
Print Assumptions C54_otherwise_it_completes.
(** It happens: client 0's connect is queued, the connection is closed by the broker
    before it is written; client 1's request is then accepted and never completes. *)
Definition x_hang : list event := x_reg2 ++ [EvIssue 0%nat (OConnect (mk_connect None None None)); EvClient 0%nat; EvNet xA IEnd; EvIssue 1%nat (x_ack 1)].
Theorem C54_hang_reachable : exists s k, reach xE x_hang s /\ lost_while_connecting s 0%nat xA k /\ left_behind 0%nat k /\
  requested (s_log s) 1%nat (x_ack 1) /\ forall h2 s2, run xE s h2 = Some s2 -> ~ In 0%nat (settled (s_log s2)) /\ ~ In 1%nat (settled (s_log s2)).
Proof.
  assert (X : exists s, reach xE x_hang s /\ (exists k, lost_while_connecting s 0%nat xA k /\ left_behind 0%nat k) /\ requested (s_log s) 1%nat (x_ack 1) /\ settled (s_log s) = []).
  { unfold reach. destruct (run xE sys_init x_hang) as [s|] eqn:R; [|vm_compute in R; discriminate].
    exists s. vm_compute in R. injection R as <-. split; [reflexivity|]. split; [|split].
    - eexists. split.
      + unfold lost_while_connecting. cbn [s_log s_conns]. split; [eexists; vm_compute; repeat first [left; reflexivity|right]|].
        split; [vm_compute; tauto|]. split; [vm_compute; intros X; repeat (destruct X as [X|X]; [discriminate X|]); exact X|].
        split; [vm_compute; reflexivity|reflexivity].
      + eexists. split; [now left|reflexivity].
    - exists 1%nat. vm_compute. repeat first [left; reflexivity|right].
    - reflexivity. }
  destruct X as (s & H & (k & L & B) & Hr & Hs). exists s, k. split; [exact H|]. split; [exact L|]. split; [exact B|]. split; [exact Hr|].
  intros h2 s2 R. destruct (C54_engine_hangs xE x_hang s 0%nat xA k H L B h2 s2 R) as (l2 & -> & Hl).
  rewrite settled_app, Hs. cbn [app].
  assert (Z : settled l2 = []).
  { clear - Hl. induction l2 as [|x l2 IH]; [reflexivity|]. change (x :: l2) with ([x] ++ l2). rewrite settled_app, IH by (intros y Hy; apply Hl; now right).
    specialize (Hl x (or_introl eq_refl)). destruct x; try reflexivity; discriminate. }
  rewrite Z. split; intros [].
Qed.
Print Assumptions C54_hang_reachable.
