(** The engine step by step: every transition of a well-formed state in explicit
    form. *)
From Verif Require Import Bytes Errors Wire Proto Codec Address Message Client Engine.
Open Scope N_scope.

(** * Lookup tables *)
Lemma get_set_same a k l : get_conn a (set_conn a k l) = Some k.
Proof.
  induction l as [|[b k'] r IH]; cbn; [now rewrite baddr_eqb_refl|].
  destruct (baddr_eqb a b) eqn:Eb; cbn; [now rewrite baddr_eqb_refl|now rewrite Eb].
Qed.
Lemma get_set_other a b k l : a <> b -> get_conn b (set_conn a k l) = get_conn b l.
Proof.
  intros Hab. induction l as [|[c k'] r IH]; cbn.
  - destruct (baddr_eqb b a) eqn:X; auto. apply baddr_eqb_spec in X. congruence.
  - destruct (baddr_eqb a c) eqn:Eb; cbn.
    + apply baddr_eqb_spec in Eb; subst c.
      destruct (baddr_eqb b a) eqn:X; auto. apply baddr_eqb_spec in X. congruence.
    + now rewrite IH.
Qed.
Lemma get_set a b k l : get_conn b (set_conn a k l) = if baddr_eqb a b then Some k else get_conn b l.
Proof.
  destruct (baddr_eqb a b) eqn:X.
  - apply baddr_eqb_spec in X; subst. apply get_set_same.
  - apply baddr_eqb_neq in X. now apply get_set_other.
Qed.
Lemma get_set_some a b k l : get_conn b l <> None -> get_conn b (set_conn a k l) <> None.
Proof. rewrite get_set. destruct (baddr_eqb a b); congruence. Qed.
Lemma get_conn_in a l k : get_conn a l = Some k -> In (a, k) l.
Proof.
  induction l as [|[b k'] r IH]; cbn; [discriminate|].
  destruct (baddr_eqb a b) eqn:X; intros H; [|now right; apply IH].
  apply baddr_eqb_spec in X. left. congruence.
Qed.
Lemma set_conn_ne a k l : set_conn a k l <> [].
Proof. destruct l as [|[b k'] r]; cbn; [|destruct (baddr_eqb a b)]; discriminate. Qed.

Lemma set_ch_same f h c : set_ch f h c h = c.
Proof. unfold set_ch. now rewrite Nat.eqb_refl. Qed.
Lemma set_ch_other f h c x : x <> h -> set_ch f h c x = f x.
Proof. unfold set_ch. destruct (x =? h)%nat eqn:X; auto. apply Nat.eqb_eq in X. congruence. Qed.

Lemma get_client_in id l c : get_client id l = Some c -> In c l /\ rc_id c = id.
Proof.
  induction l as [|x r IH]; cbn; [discriminate|].
  destruct (rc_id x =? id) eqn:X; intros H.
  - apply N.eqb_eq in X. injection H as ->. auto.
  - destruct (IH H). auto.
Qed.
Lemma get_client_some id l c : In c l -> rc_id c = id -> exists c', get_client id l = Some c'.
Proof.
  induction l as [|x r IH]; cbn; [tauto|]. intros [->|H] Hid.
  - rewrite Hid, N.eqb_refl. eauto.
  - destruct (rc_id x =? id); eauto.
Qed.
Lemma get_client_app id l c x : get_client id l = Some c -> get_client id (l ++ [x]) = Some c.
Proof. induction l as [|y r IH]; cbn; [discriminate|]. destruct (rc_id y =? id); auto. Qed.
Lemma get_client_move id l c id' a :
  get_client id l = Some c -> exists c', get_client id (move_client id' a l) = Some c' /\ rc_h c' = rc_h c /\
    rc_addr c' = (if id =? id' then a else rc_addr c).
Proof.
  intros H. induction l as [|y r IH]; cbn in *; [discriminate|].
  destruct (rc_id y =? id) eqn:X.
  - injection H as ->. apply N.eqb_eq in X. subst id.
    destruct (rc_id c =? id') eqn:Y; cbn; rewrite N.eqb_refl; eauto.
  - destruct (IH H) as (c' & H1 & H2 & H3).
    destruct (rc_id y =? id') eqn:Y; cbn; rewrite X; eauto.
Qed.

(** * The recursive helpers as updates of one field *)
Fixpoint ends_ch (hs : list nat) (f : nat -> chan) : nat -> chan :=
  match hs with [] => f | h :: r => ends_ch r (set_ch f h (ch_drop_engine (f h))) end.
Fixpoint ends_log (hs : list nat) (f : nat -> chan) : list obs :=
  match hs with
  | [] => []
  | h :: r => (if ch_client (f h) then [] else cancel_all (queued_requests (f h)))
              ++ ends_log r (set_ch f h (ch_drop_engine (f h)))
  end.
(** Two states are equal when their fields are. *)
Lemma sys_ext s t :
  s_phase s = s_phase t -> s_clients s = s_clients t -> s_res s = s_res t -> s_conns s = s_conns t -> s_ch s = s_ch t ->
  s_regq s = s_regq t -> s_acks s = s_acks t -> s_mgr s = s_mgr t -> s_waiting s = s_waiting t -> s_nextid s = s_nextid t ->
  s_minted s = s_minted t -> s_nh s = s_nh t -> s_nreq s = s_nreq t -> s_narr s = s_narr t -> s_log s = s_log t -> s = t.
Proof. destruct s, t; cbn. intros; subst; reflexivity. Qed.
Lemma say_nil s : say s [] = s.
Proof. destruct s; cbn. unfold say; cbn. now rewrite app_nil_r. Qed.
Lemma say_say s l l' : say (say s l) l' = say s (l ++ l').
Proof. unfold say; cbn. now rewrite app_assoc. Qed.
Lemma drop_engine_ends_eq hs s :
  drop_engine_ends hs s = say (with_ch s (ends_ch hs (s_ch s))) (ends_log hs (s_ch s)).
Proof.
  revert s. induction hs as [|h r IH]; intros s; cbn.
  - rewrite say_nil. now destruct s.
  - rewrite IH. destruct (ch_client (s_ch s h)); cbn.
    + reflexivity.
    + unfold say, with_ch, upd_ch; cbn. now rewrite app_assoc.
Qed.
Lemma ends_ch_app a b f : ends_ch (a ++ b) f = ends_ch b (ends_ch a f).
Proof. revert f. induction a; intros; cbn; auto. Qed.
Lemma ends_log_app a b f : ends_log (a ++ b) f = ends_log a f ++ ends_log b (ends_ch a f).
Proof. revert f. induction a; intros; cbn; auto. now rewrite IHa, app_assoc. Qed.

(** The channel pairs that end with the engine. *)
Definition ended (s : sys) : list nat := map rc_h (s_clients s) ++ (if s_mgr s then [] else regq_handles s).
Lemma stop_ends s :
  stop s = drop_engine_ends (ended s) (with_res (say (with_phase s PStop) (OStop :: cancel_all (map snd (s_res s)))) []).
Proof.
  unfold stop, ended. destruct (s_mgr s); [now rewrite app_nil_r|].
  rewrite !drop_engine_ends_eq. apply sys_ext; cbn -[ends_ch ends_log]; rewrite ?ends_ch_app, ?ends_log_app, ?app_assoc; reflexivity.
Qed.
Lemma stop_eq s :
  stop s = mk_sys PStop (s_clients s) [] (s_conns s) (ends_ch (ended s) (s_ch s)) (s_regq s) (s_acks s) (s_mgr s)
             (s_waiting s) (s_nextid s) (s_minted s) (s_nh s) (s_nreq s) (s_narr s)
             (s_log s ++ (OStop :: cancel_all (map snd (s_res s))) ++ ends_log (ended s) (s_ch s)).
Proof.
  rewrite stop_ends, drop_engine_ends_eq. apply sys_ext; cbn -[ends_ch ends_log]; rewrite <- ?app_assoc; reflexivity.
Qed.

Fixpoint push_ch (i : inbound) (hs : list nat) (f : nat -> chan) : nat -> chan :=
  match hs with
  | [] => f
  | h :: r => push_ch i r (if ch_client (f h) then set_ch f h (ch_push_down i (f h)) else f)
  end.
Lemma push_down_eq i hs s : push_down i hs s = with_ch s (push_ch i hs (s_ch s)).
Proof.
  revert s. induction hs as [|h r IH]; intros s; cbn; [now destruct s|].
  rewrite IH. now destruct (ch_client (s_ch s h)).
Qed.
Lemma push_ch_meta i hs f x :
  ch_id (push_ch i hs f x) = ch_id (f x) /\ ch_up (push_ch i hs f x) = ch_up (f x) /\
  ch_client (push_ch i hs f x) = ch_client (f x) /\ ch_engine (push_ch i hs f x) = ch_engine (f x) /\
  ch_use (push_ch i hs f x) = ch_use (f x).
Proof.
  revert f. induction hs as [|h r IH]; intros f; cbn; [tauto|].
  destruct (IH (if ch_client (f h) then set_ch f h (ch_push_down i (f h)) else f)) as (-> & -> & -> & -> & ->).
  destruct (ch_client (f h)); [|tauto].
  destruct (Nat.eq_dec x h) as [->|Hn]; [rewrite set_ch_same|rewrite set_ch_other by auto]; cbn; tauto.
Qed.
Lemma push_ch_down i hs f x :
  NoDup hs -> ch_down (push_ch i hs f x) = ch_down (f x) ++ (if is_in x hs && ch_client (f x) then [i] else []).
Proof.
  revert f. induction hs as [|h r IH]; intros f Hnd; cbn; [now rewrite app_nil_r|].
  inversion Hnd as [|? ? H1 H2]; subst. rewrite IH by auto.
  destruct (x =? h)%nat eqn:X; cbn.
  - apply Nat.eqb_eq in X; subst h.
    assert (Hx : is_in x r = false).
    { unfold is_in. destruct (existsb (Nat.eqb x) r) eqn:Y; auto.
      apply existsb_exists in Y as (y & Hy & He). apply Nat.eqb_eq in He. subst. contradiction. }
    unfold is_in in Hx |- *. rewrite Hx. cbn. destruct (ch_client (f x)) eqn:Y.
    + rewrite set_ch_same. cbn. now rewrite app_nil_r.
    + now rewrite app_nil_r.
  - apply Nat.eqb_neq in X. destruct (ch_client (f h)); [rewrite set_ch_other by auto|]; reflexivity.
Qed.

Fixpoint wake_ph (ns : list nat) (w : wait) (p : phase) : phase :=
  match ns with
  | [] => p
  | n :: r => wake_ph r w (match p with PConn a m Waiting => if (m =? n)%nat then PConn a m w else p | _ => p end)
  end.
Lemma wake_eq s n w : wake s n w = with_phase s (wake_ph [n] w (s_phase s)).
Proof. destruct s as [p]; unfold wake; cbn. destruct p as [| | | |? m ww|]; try reflexivity. destruct ww; try reflexivity. cbn. now destruct (m =? n)%nat. Qed.
Lemma wake_all_eq ns w s : wake_all ns w s = with_phase s (wake_ph ns w (s_phase s)).
Proof.
  revert s. induction ns as [|n r IH]; intros s; cbn; [now destruct s|].
  rewrite IH, wake_eq. reflexivity.
Qed.
(** Waking changes nothing but what a waiting engine waits for. *)
Lemma wake_ph_cases ns w p :
  wake_ph ns w p = p \/ exists a m, p = PConn a m Waiting /\ In m ns /\ wake_ph ns w p = PConn a m w.
Proof.
  revert p. induction ns as [|n r IH]; intros p; cbn; [now left|].
  destruct p as [| | | |a m []|]; try (destruct (IH PStart) as [H|(?&?&H&_)]; [now left|discriminate]);
    try (destruct (IH PRun) as [H|(?&?&H&_)]; [now left|discriminate]);
    try (match goal with |- wake_ph _ _ ?q = _ \/ _ => destruct (IH q) as [H|(?&?&H&_)]; [now left|discriminate] end).
  destruct (m =? n)%nat eqn:X.
  - apply Nat.eqb_eq in X; subst n. right. exists a, m. split; [auto|]. split; [now left|].
    clear IH. induction r as [|n r IH]; cbn; auto. destruct w; auto.
    destruct (m =? n)%nat; auto.
  - destruct (IH (PConn a m Waiting)) as [H|(a' & m' & H & Hi & He)]; [now left|].
    injection H as <- <-. right. exists a, m. auto.
Qed.

(** * Well-formed states *)
Definition caddr (E : env) (c : connect_req) : baddr := match cn_addr c with Some a => a | None => broker_address (e_cfg E) end.
Record wf (E : env) (s : sys) : Prop := mk_wf {
  wf_start : s_phase s = PStart -> s_clients s = [] /\ s_conns s = [];
  wf_cfg : s_phase s <> PStart -> s_phase s <> PStop -> get_conn (broker_address (e_cfg E)) (s_conns s) <> None;
  wf_addr : forall c, In c (s_clients s) -> get_conn (rc_addr c) (s_conns s) <> None;
  wf_phase : match s_phase s with
             | PAuth id _ c | PDial id _ c => exists x, get_client id (s_clients s) = Some x
             | PConn a _ _ => get_conn a (s_conns s) <> None
             | _ => True
             end;
  wf_dial : match s_phase s with PDial _ _ c => get_conn (caddr E c) (s_conns s) = None | _ => True end }.

(** * Transitions *)
Definition is_connect (o : outbound) : bool := match o with OConnect _ => true | _ => false end.
(** The request is queued for the connection of its client, or that connection is
    dead and the engine ends. *)
Inductive fwd (s : sys) (id : N) (n : nat) (o : outbound) : sys -> Prop :=
| fwd_ok c k :
    get_client id (s_clients s) = Some c -> get_conn (rc_addr c) (s_conns s) = Some k -> k_alive k = true ->
    fwd s id n o (with_phase (say (put_conn s (rc_addr c)
        (mk_conn (k_e2n k ++ [mk_citem (Some n) o (is_connect o)]) (k_n2e k) (k_res k) true (k_errored k)))
        [OForward n (rc_addr c) o]) (if is_connect o then PConn (rc_addr c) n Waiting else PRun))
| fwd_dead c k :
    get_client id (s_clients s) = Some c -> get_conn (rc_addr c) (s_conns s) = Some k -> k_alive k = false ->
    fwd s id n o (stop s).
Definition moved (E : env) (s : sys) (id : N) (c : connect_req) : sys :=
  if baddr_eqb (caddr E c) (broker_address (e_cfg E)) then s else with_clients s (move_client id (caddr E c) (s_clients s)).

Lemma forward_fwd s id n o c k :
  get_client id (s_clients s) = Some c -> get_conn (rc_addr c) (s_conns s) = Some k -> fwd s id n o (forward s id n o).
Proof.
  intros Hc Hk. unfold forward. rewrite Hc. unfold send_conn. rewrite Hk.
  destruct (k_alive k) eqn:Ha; [|now apply fwd_dead with c k].
  replace (match o with OConnect _ => true | _ => false end) with (is_connect o) by now destruct o.
  now apply fwd_ok.
Qed.

(** The state after the engine has taken request [n]. *)
Definition taken (s : sys) (h : nat) (q : list (nat * outbound)) (n : nat) (res : resolver) (dropped : list nat) : sys :=
  say (with_res (say (upd_ch s h (ch_set_up q)) [OTake n]) res) (cancel_all dropped).
Definition filled (E : env) (c : connect_req) : connect_req :=
  mk_connect (cn_auth_data c) (cn_auth_method c) (Some (fill_address (e_cfg E) (cn_addr c))).
(** Delivery of an event nobody waits for. *)
Definition delivered (s : sys) (a : baddr) (i : inbound) : sys :=
  with_ch s (push_ch i (map rc_h (filter (addressed a i) (s_clients s))) (s_ch s)).
Inductive sent (s : sys) (a : baddr) (ser : nat) (i : inbound) : sys -> Prop :=
| sent_answer n r : r_resolve (ikey i) (s_res s) = Some (n, r) -> sent s a ser i (say (with_res s r) [OAnswer n ser i])
| sent_deliver : r_resolve (ikey i) (s_res s) = None -> sent s a ser i (delivered s a i).
Lemma manager_send_sent s a ser i : sent s a ser i (manager_send s a ser i).
Proof.
  unfold manager_send. destruct (r_resolve (ikey i) (s_res s)) as [[n r]|] eqn:X; [now constructor|].
  rewrite push_down_eq. now constructor.
Qed.
(** A connection task ends. *)
Definition dead (s : sys) (a : baddr) (k : conn) : sys :=
  with_phase (put_conn s a (mk_conn (k_e2n k) (k_n2e k) [] false (k_errored k))) (wake_ph (map snd (k_res k)) Lost (s_phase s)).
Lemma conn_end_dead s a k : conn_end s a k = dead s a k.
Proof. unfold conn_end. now rewrite wake_all_eq. Qed.
(** What a connection does with the response channel of the command it takes. *)
Definition put_item (x : citem) (r : resolver) : resolver * list nat :=
  if ci_wait x then match ci_src x with Some n => r_put (okey (ci_out x)) n r | None => (r, []) end else (r, []).
Definition popped (s : sys) (a : baddr) (k : conn) (x : citem) (q : list citem) : sys :=
  with_phase (put_conn s a (mk_conn q (k_n2e k) (fst (put_item x (k_res k))) true (k_errored k)))
             (wake_ph (snd (put_item x (k_res k))) Lost (s_phase s)).
Definition encodes (E : env) (now : N) (o : outbound) : outcome bytes := obind (to_cmd now o) (encode (e_oc E)).

Inductive trans (E : env) (s : sys) : event -> sys -> Prop :=
| T_newid : s_mgr s = true -> trans E s EvNewId (with_ids s (bump (s_nextid s)) (s_minted s ++ [s_nextid s]) (s_nh s))
| T_register id topic minted :
    s_mgr s = true -> remove_n id (s_minted s) = Some minted -> s_phase s <> PStop ->
    trans E s (EvRegister id topic)
      (with_regs (upd_ch (with_ids s (s_nextid s) minted (S (s_nh s))) (s_nh s) (fun _ => mk_chan id [] [] true true false))
        (s_regq s ++ [(s_nh s, id, topic)]) (s_acks s) true (s_waiting s ++ [s_nh s]))
| T_register_err id topic minted :
    s_mgr s = true -> remove_n id (s_minted s) = Some minted -> s_phase s = PStop ->
    trans E s (EvRegister id topic) (say (with_ids s (s_nextid s) minted (S (s_nh s))) [ORegErr (s_nh s)])
| T_confirm h m :
    is_in h (s_waiting s) = true -> s_acks s = S m ->
    trans E s (EvConfirm h) (say (upd_ch (with_regs s (s_regq s) m (s_mgr s) (remove_h h (s_waiting s))) h ch_confirm) [OConfirm h])
| T_confirm_err h :
    is_in h (s_waiting s) = true -> s_acks s = O -> s_phase s = PStop ->
    trans E s (EvConfirm h) (say (upd_ch (with_regs s (s_regq s) O (s_mgr s) (remove_h h (s_waiting s))) h ch_drop_client) [ORegErr h])
| T_cancelreg h :
    is_in h (s_waiting s) = true ->
    trans E s (EvCancelReg h) (upd_ch (with_regs s (s_regq s) (s_acks s) (s_mgr s) (remove_h h (s_waiting s))) h ch_drop_client)
| T_dropmgr :
    s_mgr s = true -> s_waiting s = [] -> s_phase s <> PStop ->
    trans E s EvDropManager (with_regs s (s_regq s) (s_acks s) false [])
| T_dropmgr_stopped :
    s_mgr s = true -> s_waiting s = [] -> s_phase s = PStop ->
    trans E s EvDropManager (say (with_ch (with_regs s (s_regq s) (s_acks s) false []) (ends_ch (regq_handles s) (s_ch s)))
                               (ends_log (regq_handles s) (s_ch s)))
| T_issue h o :
    ch_client (s_ch s h) = true -> ch_use (s_ch s h) = true -> api_request (ch_id (s_ch s h)) o = true -> ch_engine (s_ch s h) = true ->
    trans E s (EvIssue h o) (say (upd_ch (with_counts s (S (s_nreq s)) (s_narr s)) h (ch_push_up (s_nreq s, o))) [OIssue h (s_nreq s) o])
| T_refuse h o :
    ch_client (s_ch s h) = true -> ch_use (s_ch s h) = true -> api_request (ch_id (s_ch s h)) o = true -> ch_engine (s_ch s h) = false ->
    trans E s (EvIssue h o) (say s [ORefuse h o])
| T_recv h i q :
    ch_client (s_ch s h) = true -> ch_use (s_ch s h) = true -> ch_down (s_ch s h) = i :: q ->
    trans E s (EvRecv h) (say (upd_ch s h (ch_set_down q)) [OGot h i])
| T_gone h :
    ch_client (s_ch s h) = true -> ch_use (s_ch s h) = true -> ch_down (s_ch s h) = [] -> ch_engine (s_ch s h) = false ->
    trans E s (EvRecv h) (say s [OGone h])
| T_dropclient h :
    ch_client (s_ch s h) = true -> ch_use (s_ch s h) = true ->
    trans E s (EvDropClient h)
      (say (upd_ch s h ch_drop_client) (if ch_engine (s_ch s h) then [] else cancel_all (queued_requests (s_ch s h))))
| T_start :
    s_phase s = PStart ->
    trans E s (EvStart true) (with_phase (put_conn (say s [ODial (broker_address (e_cfg E)) true]) (broker_address (e_cfg E)) conn_init) PRun)
| T_start_err :
    s_phase s = PStart -> trans E s (EvStart false) (stop (say s [ODial (broker_address (e_cfg E)) false]))
| T_take_send h c n o q res dropped s' :
    s_phase s = PRun -> In c (s_clients s) -> rc_h c = h -> ch_up (s_ch s h) = (n, o) :: q ->
    (if asks o then r_put (okey o) n (s_res s) else (s_res s, [])) = (res, dropped) ->
    is_connect o = false -> fwd (taken s h q n res dropped) (rc_id c) n o s' ->
    trans E s (EvClient h) s'
| T_take_auth h c n r q res dropped :
    s_phase s = PRun -> In c (s_clients s) -> rc_h c = h -> ch_up (s_ch s h) = (n, OConnect r) :: q ->
    r_put (Some (str "CONNECT")) n (s_res s) = (res, dropped) -> e_auth E <> None ->
    trans E s (EvClient h) (with_phase (taken s h q n res dropped) (PAuth (rc_id c) n (filled E r)))
| T_take_dial h c n r q res dropped :
    s_phase s = PRun -> In c (s_clients s) -> rc_h c = h -> ch_up (s_ch s h) = (n, OConnect r) :: q ->
    r_put (Some (str "CONNECT")) n (s_res s) = (res, dropped) -> e_auth E = None ->
    get_conn (caddr E (filled E r)) (s_conns s) = None ->
    trans E s (EvClient h) (with_phase (taken s h q n res dropped) (PDial (rc_id c) n (filled E r)))
| T_take_conn h c n r q res dropped s' :
    s_phase s = PRun -> In c (s_clients s) -> rc_h c = h -> ch_up (s_ch s h) = (n, OConnect r) :: q ->
    r_put (Some (str "CONNECT")) n (s_res s) = (res, dropped) -> e_auth E = None ->
    get_conn (caddr E (filled E r)) (s_conns s) <> None ->
    fwd (moved E (taken s h q n res dropped) (rc_id c) (filled E r)) (rc_id c) n (OConnect (filled E r)) s' ->
    trans E s (EvClient h) s'
| T_client_gone h c :
    s_phase s = PRun -> In c (s_clients s) -> rc_h c = h -> ch_up (s_ch s h) = [] -> ch_client (s_ch s h) = false ->
    trans E s (EvClient h) (stop s)
| T_auth_err id n c r :
    s_phase s = PAuth id n c -> (forall d, r <> Ok d) -> trans E s (EvAuth r) (stop (say s [OAuthed n r]))
| T_auth_dial id n c d :
    s_phase s = PAuth id n c -> get_conn (caddr E c) (s_conns s) = None ->
    trans E s (EvAuth (Ok d)) (with_phase (say s [OAuthed n (Ok d)]) (PDial id n (mk_connect (Some d) (e_auth E) (cn_addr c))))
| T_auth_conn id n c d s' :
    s_phase s = PAuth id n c -> get_conn (caddr E c) (s_conns s) <> None ->
    fwd (moved E (say s [OAuthed n (Ok d)]) id (mk_connect (Some d) (e_auth E) (cn_addr c))) id n
        (OConnect (mk_connect (Some d) (e_auth E) (cn_addr c))) s' ->
    trans E s (EvAuth (Ok d)) s'
| T_dial id n c s' :
    s_phase s = PDial id n c ->
    fwd (moved E (put_conn (say s [ODial (caddr E c) true]) (caddr E c) conn_init) id c) id n (OConnect c) s' ->
    trans E s (EvDial true) s'
| T_dial_err id n c :
    s_phase s = PDial id n c -> trans E s (EvDial false) (stop (say s [ODial (caddr E c) false]))
| T_answered a n ser i s' :
    s_phase s = PConn a n (Answered ser i) -> sent (with_phase (say s [OHandle a ser i]) PRun) a ser i s' ->
    trans E s EvAnswered s'
| T_lost a n : s_phase s = PConn a n Lost -> trans E s EvAnswered (stop s)
| T_pong a k ser q :
    s_phase s = PRun -> s_clients s <> [] -> get_conn a (s_conns s) = Some k -> k_n2e k = (ser, InPing) :: q -> k_alive k = true ->
    trans E s (EvConn a)
      (say (put_conn s a (mk_conn (k_e2n k ++ [mk_citem None OPong false]) q (k_res k) true (k_errored k)))
           [OHandle a ser InPing; OPonged a])
| T_ping_dead a k ser q :
    s_phase s = PRun -> s_clients s <> [] -> get_conn a (s_conns s) = Some k -> k_n2e k = (ser, InPing) :: q -> k_alive k = false ->
    trans E s (EvConn a) (stop (say (put_conn s a (mk_conn (k_e2n k) q (k_res k) (k_alive k) (k_errored k))) [OHandle a ser InPing]))
| T_handle a k ser i q s' :
    s_phase s = PRun -> s_clients s <> [] -> get_conn a (s_conns s) = Some k -> k_n2e k = (ser, i) :: q -> i <> InPing ->
    sent (say (put_conn s a (mk_conn (k_e2n k) q (k_res k) (k_alive k) (k_errored k))) [OHandle a ser i]) a ser (fix_lookup a i) s' ->
    trans E s (EvConn a) s'
| T_conn_gone a k :
    s_phase s = PRun -> s_clients s <> [] -> get_conn a (s_conns s) = Some k -> k_n2e k = [] -> k_alive k = false ->
    trans E s (EvConn a) (stop s)
| T_reg h id topic q :
    s_phase s = PRun -> s_regq s = (h, id, topic) :: q -> s_mgr s = true ->
    trans E s EvReg (say (with_clients (with_regs s q (S (s_acks s)) true (s_waiting s))
                            (s_clients s ++ [mk_rclient h id topic (broker_address (e_cfg E))])) [OReg h id])
| T_reg_late h id topic q :
    s_phase s = PRun -> s_regq s = (h, id, topic) :: q -> s_mgr s = false ->
    trans E s EvReg (stop (say (with_clients (with_regs s q (s_acks s) false (s_waiting s))
                            (s_clients s ++ [mk_rclient h id topic (broker_address (e_cfg E))])) [OReg h id]))
| T_reg_none_stop :
    s_phase s = PRun -> s_regq s = [] -> s_mgr s = false -> s_clients s = [] -> trans E s EvReg (stop s)
| T_reg_none :
    s_phase s = PRun -> s_regq s = [] -> s_mgr s = false -> s_clients s <> [] -> trans E s EvReg s
| T_write a now io k x q :
    get_conn a (s_conns s) = Some k -> k_alive k = true -> k_e2n k = x :: q -> encodes E now (ci_out x) <> Panic ->
    trans E s (EvWrite a now io)
      (say (popped s a k x q) [OWrite a (ci_src x) (ci_out x) (io && match encodes E now (ci_out x) with Ok _ => true | _ => false end)])
| T_write_panic a now io k x q :
    get_conn a (s_conns s) = Some k -> k_alive k = true -> k_e2n k = x :: q -> encodes E now (ci_out x) = Panic ->
    trans E s (EvWrite a now io)
      (dead (popped s a k x q) a (mk_conn q (k_n2e k) (fst (put_item x (k_res k))) true (k_errored k)))
| T_write_end a now io k :
    get_conn a (s_conns s) = Some k -> k_alive k = true -> k_e2n k = [] -> s_phase s = PStop -> trans E s (EvWrite a now io) (dead s a k)
| T_net_end a k x :
    get_conn a (s_conns s) = Some k -> k_alive k = true ->
    (x = IEnd \/ (k_errored k = false /\ (x = IPanic \/ exists mc, x = IFrame mc /\ to_inbound mc = Panic))) ->
    trans E s (EvNet a x) (dead s a k)
| T_net_err a k e :
    get_conn a (s_conns s) = Some k -> k_alive k = true -> k_errored k = false ->
    trans E s (EvNet a (IErr e)) (put_conn s a (mk_conn (k_e2n k) (k_n2e k) (k_res k) true true))
| T_net_ignored a k mc e :
    get_conn a (s_conns s) = Some k -> k_alive k = true -> k_errored k = false -> to_inbound mc = Err e -> trans E s (EvNet a (IFrame mc)) s
| T_net_resolve a k mc i n res :
    get_conn a (s_conns s) = Some k -> k_alive k = true -> k_errored k = false -> to_inbound mc = Ok i ->
    r_resolve (ikey i) (k_res k) = Some (n, res) ->
    trans E s (EvNet a (IFrame mc))
      (with_phase (put_conn (say (with_counts s (s_nreq s) (S (s_narr s))) [OArrive a (s_narr s) i]) a
                     (mk_conn (k_e2n k) (k_n2e k) res true false)) (wake_ph [n] (Answered (s_narr s) i) (s_phase s)))
| T_net_queue a k mc i :
    get_conn a (s_conns s) = Some k -> k_alive k = true -> k_errored k = false -> to_inbound mc = Ok i ->
    r_resolve (ikey i) (k_res k) = None -> s_phase s <> PStop ->
    trans E s (EvNet a (IFrame mc))
      (put_conn (say (with_counts s (s_nreq s) (S (s_narr s))) [OArrive a (s_narr s) i]) a
         (mk_conn (k_e2n k) (k_n2e k ++ [(s_narr s, i)]) (k_res k) true false))
| T_net_stopped a k mc i :
    get_conn a (s_conns s) = Some k -> k_alive k = true -> k_errored k = false -> to_inbound mc = Ok i ->
    r_resolve (ikey i) (k_res k) = None -> s_phase s = PStop ->
    trans E s (EvNet a (IFrame mc)) (dead (say (with_counts s (s_nreq s) (S (s_narr s))) [OArrive a (s_narr s) i]) a k).

Lemma put_conn_twice s a k k' : put_conn (put_conn s a k) a k' = put_conn s a k'.
Proof.
  apply sys_ext; try reflexivity. cbn. induction (s_conns s) as [|[b x] r IH]; cbn; [now rewrite baddr_eqb_refl|].
  destruct (baddr_eqb a b) eqn:X; cbn; [now rewrite baddr_eqb_refl|rewrite X; now f_equal].
Qed.
Lemma put_twice s a k k' l l' : say (put_conn (say (put_conn s a k) l) a k') l' = say (put_conn s a k') (l ++ l').
Proof.
  rewrite <- (put_conn_twice s a k k'). apply sys_ext; try reflexivity. cbn. now rewrite app_assoc.
Qed.
Lemma connected_fwd E s id n c x :
  get_client id (s_clients s) = Some x -> get_conn (caddr E c) (s_conns s) <> None ->
  (forall y, In y (s_clients s) -> get_conn (rc_addr y) (s_conns s) <> None) ->
  fwd (moved E s id c) id n (OConnect c) (connected_to E s id n c).
Proof.
  intros Hx Ha Hall. unfold connected_to. fold (caddr E c).
  replace (if baddr_eqb (caddr E c) (broker_address (e_cfg E)) then s else with_clients s (move_client id (caddr E c) (s_clients s)))
    with (moved E s id c) by reflexivity.
  unfold moved. destruct (baddr_eqb (caddr E c) (broker_address (e_cfg E))).
  - destruct (get_conn (rc_addr x) (s_conns s)) as [k|] eqn:Hk.
    + now apply forward_fwd with x k.
    + apply get_client_in in Hx as [Hx _]. apply Hall in Hx. congruence.
  - destruct (get_client_move _ _ _ id (caddr E c) Hx) as (y & Hy & _ & Hya). rewrite N.eqb_refl in Hya.
    destruct (get_conn (caddr E c) (s_conns s)) as [k|] eqn:Hk; [|congruence].
    apply forward_fwd with y k; cbn; [assumption|now rewrite Hya].
Qed.

Lemma handle_other s a ser i : i <> InPing -> handle_inbound s a ser i = manager_send s a ser (fix_lookup a i).
Proof. intros H. destruct i; try reflexivity. congruence. Qed.

Lemma step_trans E s e s' : wf E s -> step E s e = Some s' -> trans E s e s'.
Proof.
  intros [W1 W2 W3 W4 W5] H. destruct e; cbn [step] in H.
  - destruct (s_mgr s) eqn:M; [|discriminate]. injection H as <-. now constructor.
  - destruct (s_mgr s) eqn:M; [|discriminate].
    destruct (remove_n id (s_minted s)) as [minted|] eqn:R; [|discriminate].
    destruct (s_phase s) eqn:P; injection H as <-;
      try (apply T_register with (minted := minted); auto; congruence).
    apply T_register_err; auto.
  - destruct (is_in h (s_waiting s)) eqn:W; [|discriminate].
    destruct (s_acks s) as [|m] eqn:A.
    + destruct (s_phase s) eqn:P; try discriminate. injection H as <-. now apply T_confirm_err.
    + injection H as <-. now apply T_confirm.
  - destruct (is_in h (s_waiting s)) eqn:W; [|discriminate]. injection H as <-. now apply T_cancelreg.
  - destruct (s_mgr s) eqn:M; [|discriminate]. destruct (s_waiting s) eqn:W; [|discriminate].
    destruct (s_phase s) eqn:P; injection H as <-; try (apply T_dropmgr; auto; congruence).
    rewrite drop_engine_ends_eq. exact (T_dropmgr_stopped E s M W P).
  - destruct (ch_client (s_ch s h) && ch_use (s_ch s h) && api_request (ch_id (s_ch s h)) o) eqn:G; [|discriminate].
    apply andb_true_iff in G as [G G3]. apply andb_true_iff in G as [G1 G2].
    destruct (ch_engine (s_ch s h)) eqn:G4; injection H as <-; [now apply T_issue|now apply T_refuse].
  - destruct (ch_client (s_ch s h) && ch_use (s_ch s h)) eqn:G; [|discriminate].
    apply andb_true_iff in G as [G1 G2].
    destruct (ch_down (s_ch s h)) as [|i q] eqn:D.
    + destruct (ch_engine (s_ch s h)) eqn:G4; [discriminate|]. injection H as <-. now apply T_gone.
    + injection H as <-. now apply T_recv.
  - destruct (ch_client (s_ch s h) && ch_use (s_ch s h)) eqn:G; [|discriminate].
    apply andb_true_iff in G as [G1 G2]. pose proof (T_dropclient E s h G1 G2) as T.
    destruct (ch_engine (s_ch s h)) eqn:G4; injection H as <-; [now rewrite say_nil in T|exact T].
  - destruct (s_phase s) eqn:P; try discriminate. destruct ok; injection H as <-.
    + now apply T_start.
    + now apply T_start_err.
  - destruct (s_phase s) eqn:P; try discriminate.
    destruct (s_conns s) as [|x0 r0] eqn:C.
    { destruct (s_clients s) eqn:CL; [discriminate|]. exfalso. apply W2; auto; discriminate. }
    rewrite <- C in *. clear C x0 r0.
    destruct (find (fun c => (rc_h c =? h)%nat) (s_clients s)) as [c|] eqn:F; [|discriminate].
    apply find_some in F as [F1 F2]. apply Nat.eqb_eq in F2.
    destruct (ch_up (s_ch s h)) as [|[n o] q] eqn:U.
    { destruct (ch_client (s_ch s h)) eqn:G; [discriminate|]. injection H as <-. now apply T_client_gone with c. }
    destruct (if asks o then r_put (okey o) n (s_res s) else (s_res s, [])) as [res dropped] eqn:R.
    injection H as <-. fold (taken s h q n res dropped).
    destruct (get_client_some (rc_id c) (s_clients s) c F1 eq_refl) as [x Hx].
    destruct (is_connect o) eqn:IC.
    + destruct o; try discriminate. rename c0 into r. cbn [handle_outbound]. cbn in R. fold (filled E r).
      destruct (e_auth E) eqn:EA; [apply T_take_auth; auto; congruence|].
      unfold dial_or_go. fold (caddr E (filled E r)). cbn [s_conns taken say with_res upd_ch with_ch].
      destruct (get_conn (caddr E (filled E r)) (s_conns s)) eqn:K; [|now apply T_take_dial].
      apply T_take_conn with c n r q res dropped; auto; [congruence|].
      apply connected_fwd with x; auto. change (get_conn (caddr E (filled E r)) (s_conns s) <> None). congruence.
    + assert (handle_outbound E (taken s h q n res dropped) (rc_id c) n o = forward (taken s h q n res dropped) (rc_id c) n o) as ->
        by (destruct o; try discriminate; reflexivity).
      apply T_take_send with c n o q res dropped; auto.
      destruct (get_conn (rc_addr x) (s_conns s)) as [k|] eqn:K.
      * now apply forward_fwd with x k.
      * apply get_client_in in Hx as [Hx _]. apply W3 in Hx. congruence.
  - destruct (s_phase s) as [| |id n c| | |] eqn:P; try discriminate. destruct W4 as [x Hx].
    destruct r as [d|e|].
    + injection H as <-. unfold dial_or_go.
      change (match cn_addr (mk_connect (Some d) (e_auth E) (cn_addr c)) with Some a => a | None => broker_address (e_cfg E) end) with (caddr E c).
      cbn [s_conns say]. destruct (get_conn (caddr E c) (s_conns s)) eqn:K; [|now apply T_auth_dial].
      apply T_auth_conn with id n c; auto; [congruence|].
      apply connected_fwd with x; auto. change (get_conn (caddr E c) (s_conns s) <> None). congruence.
    + injection H as <-. apply T_auth_err with id c; auto. discriminate.
    + injection H as <-. apply T_auth_err with id c; auto. discriminate.
  - destruct (s_phase s) as [| | |id n c| |] eqn:P; try discriminate. destruct W4 as [x Hx]. fold (caddr E c) in H.
    destruct ok; injection H as <-; [|now apply T_dial_err with id n].
    apply T_dial with id n c; auto.
    apply connected_fwd with x; cbn; auto; [rewrite get_set_same; discriminate|].
    intros y Hy. apply get_set_some. auto.
  - destruct (s_phase s) as [| | | |a n w|] eqn:P; try discriminate. destruct w as [|ser i|]; try discriminate.
    + injection H as <-. apply T_answered with a n ser i; auto. apply manager_send_sent.
    + injection H as <-. now apply T_lost with a n.
  - destruct (s_phase s) eqn:P; try discriminate. destruct (s_clients s) as [|c0 cs] eqn:C; [discriminate|].
    assert (Hne : s_clients s <> []) by congruence.
    destruct (get_conn a (s_conns s)) as [k|] eqn:K; [|discriminate].
    destruct (k_n2e k) as [|[ser i] q] eqn:Q.
    + destruct (k_alive k) eqn:A; [discriminate|]. injection H as <-. now apply T_conn_gone with k.
    + injection H as <-.
      assert (i = InPing \/ i <> InPing) as [->|Hi] by (destruct i; (left; reflexivity) || (right; discriminate)).
      * cbn [handle_inbound]. unfold send_conn. cbn [s_conns say put_conn with_conns]. rewrite get_set_same.
        cbn [k_alive k_e2n k_n2e k_res k_errored].
        destruct (k_alive k) eqn:A.
        -- rewrite put_twice. now apply T_pong.
        -- rewrite <- A. now apply T_ping_dead.
      * apply T_handle with k ser i q; auto.
        rewrite handle_other by auto. apply manager_send_sent.
  - destruct (s_phase s) eqn:P; try discriminate.
    destruct (s_regq s) as [|[[h id] topic] q] eqn:Q.
    + destruct (s_mgr s) eqn:M; [discriminate|]. destruct (s_clients s) eqn:C; injection H as <-.
      * now apply T_reg_none_stop.
      * apply T_reg_none; auto; congruence.
    + destruct (s_mgr s) eqn:M; injection H as <-; [now apply T_reg|now apply T_reg_late].
  - destruct (get_conn a (s_conns s)) as [k|] eqn:K; [|discriminate].
    destruct (k_alive k) eqn:A; [|discriminate].
    destruct (k_e2n k) as [|x q] eqn:Q.
    + destruct (s_phase s) eqn:P; try discriminate. injection H as <-. rewrite conn_end_dead. now apply T_write_end.
    + injection H as <-. unfold conn_write. fold (put_item x (k_res k)). fold (encodes E now (ci_out x)).
      assert (Hp : wake_all (snd (put_item x (k_res k))) Lost (put_conn s a (mk_conn q (k_n2e k) (fst (put_item x (k_res k))) true (k_errored k)))
                   = popped s a k x q) by (rewrite wake_all_eq; reflexivity).
      destruct (put_item x (k_res k)) as [res dropped] eqn:PI. cbn [fst snd] in Hp. rewrite A, Hp.
      destruct (encodes E now (ci_out x)) as [b|er|] eqn:EN.
      * pose proof (T_write E s a now io k x q K A Q) as T. rewrite EN, andb_true_r in T. apply T. discriminate.
      * pose proof (T_write E s a now io k x q K A Q) as T. rewrite EN, andb_false_r in T. apply T. discriminate.
      * rewrite conn_end_dead. pose proof (T_write_panic E s a now io k x q K A Q EN) as T. now rewrite PI in T.
  - destruct (get_conn a (s_conns s)) as [k|] eqn:K; [|discriminate].
    destruct (k_alive k && (negb (k_errored k) || match x with IEnd => true | _ => false end)) eqn:G; [|discriminate].
    apply andb_true_iff in G as [A G]. injection H as <-. unfold conn_net.
    destruct x as [mc|er| |].
    + rewrite orb_false_r in G. apply negb_true_iff in G.
      destruct (to_inbound mc) as [i|er|] eqn:I.
      * destruct (r_resolve (ikey i) (k_res k)) as [[n res]|] eqn:R.
        -- rewrite wake_eq, A, G. exact (T_net_resolve E s a k mc i n res K A G I R).
        -- rewrite A, G.
           destruct (s_phase s) eqn:P; rewrite ?conn_end_dead;
             try (apply (T_net_queue E s a k mc i K A G I R); congruence).
           exact (T_net_stopped E s a k mc i K A G I R P).
      * now apply T_net_ignored with k er.
      * rewrite conn_end_dead. apply T_net_end; eauto 6.
    + rewrite orb_false_r in G. apply negb_true_iff in G. rewrite A. now apply T_net_err.
    + rewrite conn_end_dead. apply T_net_end; eauto.
    + rewrite orb_false_r in G. apply negb_true_iff in G. rewrite conn_end_dead. apply T_net_end; eauto.
Qed.

(** Reduces projections of updated states. *)
Ltac pj := cbn -[get_conn set_conn broker_address ends_ch ends_log push_ch wake_ph cancel_all set_ch put_item str].

(** * Well-formedness is kept *)
Lemma wf_same E s s' :
  wf E s -> s_phase s' = s_phase s -> s_clients s' = s_clients s -> s_conns s' = s_conns s -> wf E s'.
Proof. intros [W1 W2 W3 W4 W5] H1 H2 H3. constructor; rewrite ?H1, ?H2, ?H3; auto. Qed.
Lemma wf_stop E s : (forall c, In c (s_clients s) -> get_conn (rc_addr c) (s_conns s) <> None) -> wf E (stop s).
Proof. intros H. rewrite stop_eq. constructor; pj; auto; congruence. Qed.
Lemma wf_fwd E s id n o s' :
  get_conn (broker_address (e_cfg E)) (s_conns s) <> None ->
  (forall c, In c (s_clients s) -> get_conn (rc_addr c) (s_conns s) <> None) ->
  fwd s id n o s' -> wf E s'.
Proof.
  intros H1 H2 F. destruct F; [|now apply wf_stop].
  constructor; pj.
  - destruct (is_connect o); discriminate.
  - intros _ _. now apply get_set_some.
  - intros x Hx. now apply get_set_some, H2.
  - destruct (is_connect o); pj; auto. rewrite get_set_same. discriminate.
  - destruct (is_connect o); pj; auto.
Qed.
Lemma moved_conns E s id c : s_conns (moved E s id c) = s_conns s.
Proof. unfold moved. now destruct (baddr_eqb _ _). Qed.
Lemma moved_addr E s id c :
  get_conn (caddr E c) (s_conns s) <> None ->
  (forall x, In x (s_clients s) -> get_conn (rc_addr x) (s_conns s) <> None) ->
  forall x, In x (s_clients (moved E s id c)) -> get_conn (rc_addr x) (s_conns (moved E s id c)) <> None.
Proof.
  intros H1 H2 x. rewrite moved_conns. unfold moved. destruct (baddr_eqb (caddr E c) _); [auto|].
  pj. intros Hx. apply in_map_iff in Hx as (y & <- & Hy). destruct (rc_id y =? id); pj; auto.
Qed.
(** Updating an existing connection. *)
Lemma wf_put E s s' a k k0 :
  wf E s -> get_conn a (s_conns s) = Some k0 ->
  s_clients s' = s_clients s -> s_conns s' = set_conn a k (s_conns s) ->
  (exists ns w, s_phase s' = wake_ph ns w (s_phase s)) -> wf E s'.
Proof.
  intros [W1 W2 W3 W4 W5] Hk H1 H2 (ns & w & H3).
  destruct (wake_ph_cases ns w (s_phase s)) as [Hp|(b & m & Hp & _ & Hw)].
  - rewrite Hp in H3. constructor; rewrite ?H1, ?H2, ?H3.
    + intros Hs. destruct (W1 Hs) as [_ Hc]. rewrite Hc in Hk. discriminate.
    + intros Ha Hb. apply get_set_some; auto.
    + intros c Hc. apply get_set_some; auto.
    + destruct (s_phase s); auto. now apply get_set_some.
    + destruct (s_phase s); auto. rewrite get_set_other; auto. intros ->. congruence.
  - rewrite Hp in *. rewrite Hw in H3. constructor; rewrite ?H1, ?H2, ?H3.
    + discriminate.
    + intros _ _. apply get_set_some. apply W2; discriminate.
    + intros c Hc. apply get_set_some; auto.
    + now apply get_set_some.
    + exact I.
Qed.
Lemma wf_sent E s a ser i s' : wf E s -> sent s a ser i s' -> wf E s'.
Proof. intros W S. destruct S; apply (wf_same E s); auto. Qed.

Lemma wf_trans E s e s' : wf E s -> trans E s e s' -> wf E s'.
Proof.
  intros W T. pose proof W as [W1 W2 W3 W4 W5]. destruct T;
    try (apply (wf_same E s); auto; fail); try (apply wf_stop; pj; auto; fail);
    try (match goal with P : s_phase s = _ |- _ => rewrite P in * end).
  - destruct W1 as [Wa Wb]; auto. constructor; pj; rewrite ?Wa, ?Wb; pj; auto; try discriminate.
    rewrite get_set_same. discriminate.
  - eapply wf_fwd; [| |eassumption]; pj; auto. apply W2; discriminate.
  - destruct (get_client_some (rc_id c) (s_clients s) c) as [x Hx]; auto.
    constructor; pj; auto; try discriminate; [intros; apply W2; discriminate|eauto].
  - destruct (get_client_some (rc_id c) (s_clients s) c) as [x Hx]; auto.
    constructor; pj; auto; try discriminate; [intros; apply W2; discriminate|eauto].
  - eapply wf_fwd; [| |eassumption].
    + rewrite moved_conns. pj. apply W2; discriminate.
    + apply moved_addr; auto.
  - constructor; pj; auto; try discriminate. intros; apply W2; discriminate.
  - eapply wf_fwd; [| |eassumption].
    + rewrite moved_conns. pj. apply W2; discriminate.
    + apply moved_addr; auto.
  - eapply wf_fwd; [| |eassumption].
    + rewrite moved_conns. pj. apply get_set_some. apply W2; discriminate.
    + apply moved_addr; pj; [rewrite get_set_same; discriminate|]. intros; apply get_set_some; auto.
  - eapply wf_sent; [|eassumption]. constructor; pj; auto; try discriminate. intros; apply W2; discriminate.
  - apply (wf_put E s _ a (mk_conn (k_e2n k ++ [mk_citem None OPong false]) q (k_res k) true (k_errored k)) k); auto.
    exists [], Lost; reflexivity.
  - apply wf_stop. pj. intros; apply get_set_some; auto.
  - eapply wf_sent; [|eassumption].
    eapply (wf_put E s _ a _ k); try reflexivity; auto. exists [], Lost; reflexivity.
  - constructor; pj.
    + rewrite H. discriminate.
    + intros; apply W2; discriminate.
    + intros c Hc. apply in_app_iff in Hc as [Hc|[<-|[]]]; auto. pj. apply W2; discriminate.
    + rewrite H. exact I.
    + rewrite H. exact I.
  - apply wf_stop. pj. intros c Hc. apply in_app_iff in Hc as [Hc|[<-|[]]]; auto. pj. apply W2; discriminate.
  - eapply (wf_put E s _ a _ k); try reflexivity; auto. eexists _, _; reflexivity.
  - eapply (wf_put E (popped s a k x q) _ a _ _); try reflexivity; [|pj; apply get_set_same|eexists _, _; reflexivity].
    eapply (wf_put E s _ a _ k); try reflexivity; auto. eexists _, _; reflexivity.
  - eapply (wf_put E s _ a _ k); try reflexivity; auto. eexists _, _; reflexivity.
  - eapply (wf_put E s _ a _ k); try reflexivity; auto. eexists _, _; reflexivity.
  - eapply (wf_put E s _ a _ k); try reflexivity; auto. exists [], Lost; reflexivity.
  - eapply (wf_put E s _ a _ k); try reflexivity; auto. eexists _, _; reflexivity.
  - eapply (wf_put E s _ a _ k); try reflexivity; auto. exists [], Lost; reflexivity.
  - eapply (wf_put E s _ a _ k); try reflexivity; auto. eexists _, _; reflexivity.
Qed.

(** The requests the client calls build are API requests, and building one changes
    nothing but the counters: so quantifying over [api_request] in the engine's
    schedules covers every client. *)
Lemma build_is_api id name c call : api_request id (fst (build id name c call)) = true.
Proof. destruct call; cbn; rewrite ?N.eqb_refl; reflexivity. Qed.
