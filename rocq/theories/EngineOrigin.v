(** What dials and authentication calls are made for. *)
From Verif Require Import Bytes Errors Wire Proto Codec Address Message Client SpecKeys Engine SpecEngine SpecEngine2 EngineFacts EngineInv EngineReq EngineEv EngineConn EngineLog EngineGate.
Open Scope N_scope.

Definition origin (E : env) (l1 : list obs) (x : obs) (l2 : list obs) : Prop :=
  match x with
  | ODial a _ => ((forall b ok, ~ In (ODial b ok) l1) /\ a = broker_address (e_cfg E)) \/
      exists n q, waiting_on l1 n kconnect /\ requested l1 n (OConnect q) /\ a = fill_address (e_cfg E) (cn_addr q)
  | OAuthed n _ => e_auth E <> None /\ waiting_on l1 n kconnect /\ exists q, requested l1 n (OConnect q)
  | _ => True
  end.
Lemma origin_closed E : forward_closed (origin E).
Proof. intros l1 x l2 l3 H. destruct x; exact H. Qed.
Definition homely (x : obs) : bool := match x with ODial _ _ | OAuthed _ _ => false | _ => true end.
Lemma chunk_homely E l c : forallb homely c = true -> chunk (origin E) l c.
Proof.
  intros H. apply chunk_all. intros l1 x l2 Hx. rewrite forallb_forall in H. apply H in Hx. destruct x; try exact Logic.I; discriminate.
Qed.
Lemma homely_cancel ns : forallb homely (cancel_all ns) = true.
Proof. induction ns; auto. Qed.
Lemma homely_ends hs f : forallb homely (ends_log hs f) = true.
Proof. apply forallb_forall. intros x Hx. apply ends_log_cancel in Hx as [n ->]. reflexivity. Qed.
Lemma homely_stop s : forallb homely (stop_log s) = true.
Proof. unfold stop_log. rewrite forallb_app. cbn. now rewrite homely_cancel, homely_ends. Qed.
Lemma origin_quiet E s s' c : s_log s' = s_log s ++ c -> forallb homely c = true -> exists c, s_log s' = s_log s ++ c /\ chunk (origin E) (s_log s) c.
Proof. intros H Hc. exists c. split; auto. now apply chunk_homely. Qed.
Lemma origin_one E s s' x c : s_log s' = s_log s ++ x :: c -> origin E (s_log s) x c -> forallb homely c = true ->
  exists c, s_log s' = s_log s ++ c /\ chunk (origin E) (s_log s) c.
Proof. intros H Hx Hc. eexists. split; [exact H|]. cbn [chunk]. split; [exact Hx|now apply chunk_homely]. Qed.
Lemma fwd_home s id n o s' : fwd s id n o s' -> exists c, s_log s' = s_log s ++ c /\ forallb homely c = true.
Proof. intros F. destruct F; [eexists; split; reflexivity|]. exists (stop_log s). split; [apply stop_log_eq|apply homely_stop]. Qed.
Lemma sent_home s a ser i s' : sent s a ser i s' -> exists c, s_log s' = s_log s ++ c /\ forallb homely c = true.
Proof. intros S. destruct S; [eexists; split; reflexivity|]. exists []. split; [symmetry; apply app_nil_r|reflexivity]. Qed.
Lemma trans_origin E s e s' : inv E s -> every (entry E) (s_log s) -> trans E s e s' -> exists c, s_log s' = s_log s ++ c /\ chunk (origin E) (s_log s) c.
Proof.
  intros I En T. pose proof I as [W Hh Hf R C A S]. pose proof (c_ph E s C) as P. unfold phase_ok in P.
  assert (Z : forall t c, s_log t = s_log s ++ c -> forallb homely c = true -> exists c, s_log (stop t) = s_log s ++ c /\ chunk (origin E) (s_log s) c).
  { intros t c X Y. apply (origin_quiet E s _ (c ++ stop_log t)); [rewrite stop_log_eq, X, <- app_assoc; reflexivity|]. rewrite forallb_app, Y. apply homely_stop. }
  assert (G0 : s_log s' = s_log s -> exists c, s_log s' = s_log s ++ c /\ chunk (origin E) (s_log s) c).
  { intros X. exists []. rewrite app_nil_r. split; [exact X|exact Logic.I]. }
  assert (ST : s_phase s = PStart -> origin E (s_log s) (ODial (broker_address (e_cfg E)) true) []).
  { intros X. left. split; auto. intros b ok Y. destruct ok.
    - apply (i_dial s S) in Y. destruct (wf_start E s W X) as [_ Z']. rewrite Z' in Y. apply Y. reflexivity.
    - apply in_split in Y as (l1 & l2 & Y). destruct (En _ _ _ Y) as (_ & _ & D). destruct (D eq_refl) as [r ->].
      assert (O : In OStop (s_log s)) by (rewrite Y; apply in_app_iff; right; right; now left). apply (i_stop s S) in O. congruence. }
  assert (AU : forall id n c r, s_phase s = PAuth id n c -> origin E (s_log s) (OAuthed n r) []).
  { intros id n c r X. rewrite X in P. destruct P as (P1 & P2 & P3 & P4 & P5 & q & P6 & P7). split; auto. split; [now apply (waiting_find s n kconnect R)|eauto]. }
  assert (DI : forall id n c ok, s_phase s = PDial id n c -> origin E (s_log s) (ODial (caddr E c) ok) []).
  { intros id n c ok X. rewrite X in P. destruct P as (P1 & P2 & P3 & q & P6 & P7). right. exists n, q. split; [now apply (waiting_find s n kconnect R)|]. split; auto.
    destruct P7 as (d & m & P7 & _). injection P7 as ->. reflexivity. }
  destruct T; try (apply G0; reflexivity);
    try (apply (Z s []); [symmetry; apply app_nil_r|reflexivity]);
    try (eapply origin_quiet; [reflexivity|first [reflexivity|apply homely_ends]]; fail);
    try (eapply Z; [reflexivity|reflexivity]; fail).
  - eapply origin_quiet; [reflexivity|]. destruct (ch_engine (s_ch s h)); [reflexivity|apply homely_cancel].
  - eapply origin_one; [reflexivity|exact (ST H)|reflexivity].
  - eapply origin_one; [rewrite stop_log_eq; cbn [s_log say]; rewrite <- app_assoc; reflexivity|exact (ST H)|apply homely_stop].
  - destruct (fwd_home _ _ _ _ _ H5) as (c0 & E0 & U0). rewrite taken_log, <- app_assoc in E0. cbn [app] in E0.
    eapply origin_quiet; [exact E0|]. cbn. rewrite forallb_app, homely_cancel. exact U0.
  - eapply origin_quiet; [apply taken_log|]. cbn. apply homely_cancel.
  - eapply origin_quiet; [apply taken_log|]. cbn. apply homely_cancel.
  - destruct (fwd_home _ _ _ _ _ H6) as (c0 & E0 & U0). rewrite moved_log, taken_log, <- app_assoc in E0. cbn [app] in E0.
    eapply origin_quiet; [exact E0|]. cbn. rewrite forallb_app, homely_cancel. exact U0.
  - eapply origin_one; [rewrite stop_log_eq; cbn [s_log say]; rewrite <- app_assoc; reflexivity|exact (AU _ _ _ r H)|apply homely_stop].
  - eapply origin_one; [reflexivity|exact (AU _ _ _ (Ok d) H)|reflexivity].
  - destruct (fwd_home _ _ _ _ _ H1) as (c0 & E0 & U0). rewrite moved_log in E0. cbn [s_log say] in E0. rewrite <- app_assoc in E0.
    eapply origin_one; [exact E0|exact (AU _ _ _ (Ok d) H)|exact U0].
  - destruct (fwd_home _ _ _ _ _ H0) as (c0 & E0 & U0). rewrite moved_log in E0. cbn [s_log say put_conn with_conns] in E0. rewrite <- app_assoc in E0.
    eapply origin_one; [exact E0|exact (DI _ _ _ true H)|exact U0].
  - eapply origin_one; [rewrite stop_log_eq; cbn [s_log say]; rewrite <- app_assoc; reflexivity|exact (DI _ _ _ false H)|apply homely_stop].
  - destruct (sent_home _ _ _ _ _ H0) as (c0 & E0 & U0). cbn [s_log say with_phase] in E0. rewrite <- app_assoc in E0.
    eapply origin_quiet; [exact E0|exact U0].
  - destruct (sent_home _ _ _ _ _ H4) as (c0 & E0 & U0). cbn [s_log say put_conn with_conns] in E0. rewrite <- app_assoc in E0.
    eapply origin_quiet; [exact E0|exact U0].
Qed.
Lemma reach_origins E h s : reach E h s -> every (origin E) (s_log s).
Proof.
  intros H. enough (inv E s /\ every (entry E) (s_log s) /\ every (origin E) (s_log s)) by tauto. revert h s H.
  apply (reach_inv E (fun s => inv E s /\ every (entry E) (s_log s) /\ every (origin E) (s_log s))).
  - split; [apply inv_init|]. split; intros l1 x l2 X; destruct l1; discriminate.
  - intros s e s' W (I & G & V) T. split; [eapply inv_trans; eauto|]. split.
    + destruct (trans_entries E s e s' I T) as (c & -> & Hc). apply every_app; auto. apply entry_closed.
    + destruct (trans_origin E s e s' I G T) as (c & -> & Hc). apply every_app; auto. apply origin_closed.
Qed.
