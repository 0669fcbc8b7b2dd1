(** What a connection reads is what its stream yields. *)
From Verif Require Import Bytes Errors Wire Proto Codec Address Message Client SpecKeys Engine SpecEngine SpecEngine2 SpecStack EngineFacts EngineInv EngineReq EngineEv EngineConn EngineLog EngineQueue.
Open Scope N_scope.

Definition unread (x : obs) : bool := match x with OArrive _ _ _ => false | _ => true end.
Lemma unread_nil a c : forallb unread c = true -> arrivals a c = [].
Proof. induction c as [|x c IH]; auto. cbn [forallb]. intros H. apply andb_prop in H as [H1 H2]. unfold arrivals in *. cbn [flat_map]. rewrite (IH H2). destruct x; try reflexivity. discriminate. Qed.
Lemma unread_cancel ns : forallb unread (cancel_all ns) = true.
Proof. induction ns; auto. Qed.
Lemma unread_ends hs f : forallb unread (ends_log hs f) = true.
Proof. apply forallb_forall. intros x Hx. apply ends_log_cancel in Hx as [n ->]. reflexivity. Qed.
Lemma unread_stop s : forallb unread (stop_log s) = true.
Proof. unfold stop_log. rewrite forallb_app. cbn. now rewrite unread_cancel, unread_ends. Qed.
Lemma fwd_unread s id n o s' : fwd s id n o s' -> exists c, s_log s' = s_log s ++ c /\ forallb unread c = true.
Proof. intros F. destruct F; [eexists; split; reflexivity|]. exists (stop_log s). split; [apply stop_log_eq|apply unread_stop]. Qed.
Lemma sent_unread s a ser i s' : sent s a ser i s' -> exists c, s_log s' = s_log s ++ c /\ forallb unread c = true.
Proof. intros S. destruct S; [eexists; split; reflexivity|]. exists []. split; [symmetry; apply app_nil_r|reflexivity]. Qed.
Lemma trans_net E s e s' a : trans E s e s' -> exists c, s_log s' = s_log s ++ c /\ arrivals a c = events (nets a [e]).
Proof.
  intros T.
  assert (Q : forall c, nets a [e] = [] -> s_log s' = s_log s ++ c -> forallb unread c = true -> exists c, s_log s' = s_log s ++ c /\ arrivals a c = events (nets a [e])).
  { intros c X Y Z. exists c. split; auto. rewrite X. now apply unread_nil. }
  assert (Q0 : events (nets a [e]) = [] -> s_log s' = s_log s -> exists c, s_log s' = s_log s ++ c /\ arrivals a c = events (nets a [e])).
  { intros X Y. exists []. rewrite app_nil_r, X. auto. }
  assert (Z : forall t c, nets a [e] = [] -> s' = stop t -> s_log t = s_log s ++ c -> forallb unread c = true -> exists c, s_log s' = s_log s ++ c /\ arrivals a c = events (nets a [e])).
  { intros t c X -> Y U. apply (Q (c ++ stop_log t)); auto; [rewrite stop_log_eq, Y, <- app_assoc; reflexivity|]. rewrite forallb_app, U. apply unread_stop. }
  assert (D : forall t c, nets a [e] = [] -> s_log t = s_log s ++ c -> forallb unread c = true -> (exists d, s_log s' = s_log t ++ d /\ forallb unread d = true) -> exists c, s_log s' = s_log s ++ c /\ arrivals a c = events (nets a [e])).
  { intros t c X Y U (d & Y' & U'). apply (Q (c ++ d)); auto; [rewrite Y', Y, <- app_assoc; reflexivity|]. rewrite forallb_app, U. exact U'. }
  destruct T; try (apply Q0; reflexivity);
    try (eapply Q; [reflexivity|reflexivity|first [reflexivity|apply unread_ends]]; fail);
    try (eapply Z; [reflexivity|reflexivity|reflexivity|reflexivity]; fail);
    try (apply (Z s []); [reflexivity|reflexivity|symmetry; apply app_nil_r|reflexivity]);
    try (eapply D; [reflexivity|apply taken_log| |eapply fwd_unread; eassumption]; cbn; apply unread_cancel).
  - eapply Q; [reflexivity|reflexivity|]. destruct (ch_engine (s_ch s h)); [reflexivity|apply unread_cancel].
  - eapply Q; [reflexivity|apply taken_log|]. cbn. apply unread_cancel.
  - eapply Q; [reflexivity|apply taken_log|]. cbn. apply unread_cancel.
  - refine (D _ _ eq_refl _ _ (fwd_unread _ _ _ _ _ H6)); [rewrite moved_log; apply taken_log|]. cbn. apply unread_cancel.
  - refine (D _ _ eq_refl _ _ (fwd_unread _ _ _ _ _ H1)); [rewrite moved_log; reflexivity|reflexivity].
  - refine (D _ _ eq_refl _ _ (fwd_unread _ _ _ _ _ H0)); [rewrite moved_log; reflexivity|reflexivity].
  - refine (D _ _ eq_refl _ _ (sent_unread _ _ _ _ _ H0)); reflexivity.
  - refine (D _ _ eq_refl _ _ (sent_unread _ _ _ _ _ H4)); reflexivity.
  - apply Q0; [|reflexivity]. unfold nets. cbn [flat_map]. destruct (baddr_eqb a0 a); [|reflexivity]. unfold events. cbn [flat_map app].
    destruct H1 as [-> |[_ [-> |(mc & -> & ->)]]]; reflexivity.
  - apply Q0; [|reflexivity]. unfold nets. cbn [flat_map]. now destruct (baddr_eqb a0 a).
  - apply Q0; [|reflexivity]. unfold nets. cbn [flat_map]. destruct (baddr_eqb a0 a); [|reflexivity]. unfold events. cbn. now rewrite H2.
  - eexists. split; [reflexivity|]. unfold nets, arrivals, events. cbn [flat_map app]. destruct (baddr_eqb a0 a); [|reflexivity]. cbn [flat_map app]. rewrite H2. now destruct i.
  - eexists. split; [reflexivity|]. unfold nets, arrivals, events. cbn [flat_map app]. destruct (baddr_eqb a0 a); [|reflexivity]. cbn [flat_map app]. rewrite H2. now destruct i.
  - eexists. split; [reflexivity|]. unfold nets, arrivals, events. cbn [flat_map app]. destruct (baddr_eqb a0 a); [|reflexivity]. cbn [flat_map app]. rewrite H2. now destruct i.
Qed.
Lemma reach_nets E h s a : reach E h s -> arrivals a (s_log s) = events (nets a h).
Proof.
  revert s. induction h as [|e h IH] using rev_ind; intros s H.
  - injection H as <-. reflexivity.
  - unfold reach in H. rewrite run_app in H. destruct (run E sys_init h) as [s1|] eqn:R; [|discriminate]. cbn [run] in H.
    destruct (step E s1 e) as [s2|] eqn:ST; [|discriminate]. injection H as <-.
    destruct (trans_net E s1 e s2 a (step_trans E s1 e s2 (reach_wf E h s1 R) ST)) as (c & -> & X).
    rewrite arrivals_app, (IH s1 R), X. unfold nets, events. now rewrite flat_map_app, flat_map_app.
Qed.
Lemma look_gots sv c l : v_got (look sv c l) = messages (gots c l).
Proof.
  induction l as [|x l IH] using rev_ind; [reflexivity|]. unfold look in *. rewrite fold_left_app. unfold gots, messages in *. rewrite !flat_map_app. cbn [fold_left].
  cbn [flat_map]. rewrite !app_nil_r, <- IH. clear IH.
  destruct x; cbn [look_step flat_map]; rewrite ?app_nil_r; try reflexivity.
  - destruct (h =? c)%nat; reflexivity.
  - destruct o; try reflexivity. now destruct (in_nat _ _).
  - destruct i; try reflexivity. now destruct (_ && _).
  - destruct i; destruct (h =? c)%nat; cbn; now rewrite ?app_nil_r.
  - destruct (h =? c)%nat; reflexivity.
Qed.
