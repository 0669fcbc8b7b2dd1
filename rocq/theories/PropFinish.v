(** C85: as long as nothing fails, every call can still return. *)
From Verif Require Import Bytes Errors Wire Proto Codec Address Message SpecCodec ProtoFacts CodecFacts MessageFacts SpecMessage Client SpecKeys SpecClient Engine SpecEngine SpecEngine2 EngineFacts EngineInv EngineReq EngineEv EngineConn EngineLog EngineView EngineQueue EngineRoute EngineNet EngineGate EngineLife EngineHang EngineEx SpecTurn TurnFacts SpecStack SpecAnswered SpecLoop SpecRest SpecEnd SpecBuild SpecFinish PropMessage PropClient PropEngine PropEngine2 PropEngine3 PropEngine6 PropTurn PropReceipt PropRoute PropAnswered PropLoop PropEnd PropRest PropDeliver PropDial PropBuild.
Open Scope N_scope.
Open Scope nat_scope.

(** * The tasks' steps and answers issue nothing *)
Definition tame (x : obs) : Prop := match x with OIssue _ _ _ => False | OAuthed _ (Ok d) => d = [] | _ => True end.
Definition outside (e : event) : bool := able e || match e with EvNet _ _ => true | _ => false end.
Lemma tame_cancel ns x : In x (cancel_all ns) -> tame x.
Proof. unfold cancel_all. intros X. apply in_map_iff in X as (n & <- & _). exact I. Qed.
Lemma tame_stop s x : In x (stop_log s) -> tame x.
Proof. unfold stop_log. intros X. apply in_app_iff in X as [[<-|X]|X]; [exact I|exact (tame_cancel _ _ X)|]. apply ends_log_cancel in X as [n ->]. exact I. Qed.
Lemma tame_step E s e s' : trans E s e s' -> outside e = true -> forall x, In x (s_log s') -> In x (s_log s) \/ tame x.
Proof.
  intros T Ab x Hx.
  destruct T; try discriminate Ab;
    repeat match goal with F : fwd _ _ _ _ _ |- _ => destruct F | S : sent _ _ _ _ _ |- _ => destruct S end;
    rewrite ?stop_log_eq in Hx; cbn [s_log say with_phase with_regs with_clients with_conns put_conn with_res with_counts with_ch upd_ch delivered dead popped] in Hx;
    rewrite ?moved_log, ?taken_log in Hx; cbn [s_log say put_conn with_conns] in Hx;
    repeat match goal with H : In _ (_ ++ _) |- _ => apply in_app_iff in H as [H|H] | H : In _ (_ :: _) |- _ => destruct H as [H|H] | H : In _ [] |- _ => destruct H end;
    try (left; assumption); try (right; eapply tame_cancel; eassumption); try (right; eapply tame_stop; eassumption);
    try (right; subst x; exact I).
  all: right; subst x; unfold outside in Ab; cbn [able orb] in Ab; cbn [tame];
    repeat match goal with |- context[match ?r with _ => _ end] => destruct r | H : context[match ?r with _ => _ end] |- _ => destruct r end; try exact I; try reflexivity; discriminate Ab.
Qed.
(** A stream is damaged only by an error of the decoder. *)
Lemma errored_step E s e s' : trans E s e s' -> (forall a x, e <> EvNet a (IErr x)) -> (forall a k, get_conn a (s_conns s) = Some k -> k_errored k = false) -> forall a k, get_conn a (s_conns s') = Some k -> k_errored k = false.
Proof.
  intros T Ne F a k K.
  assert (Mv : forall t id c, s_conns (moved E t id c) = s_conns t) by (intros; unfold moved; now destruct (baddr_eqb _ _)).
  destruct T; try (eapply F; exact K); try (elim (Ne _ _ eq_refl));
    repeat match goal with X : fwd _ _ _ _ _ |- _ => destruct X | X : sent _ _ _ _ _ |- _ => destruct X end;
    rewrite ?stop_conns in K; cbn [s_conns say with_phase with_regs with_clients with_conns put_conn with_res with_counts with_ch upd_ch delivered dead popped taken] in K; rewrite ?Mv in K; cbn [s_conns say with_phase with_regs with_clients with_conns put_conn with_res with_counts with_ch upd_ch taken] in K;
    try (eapply F; exact K);
    idtac.
  all: repeat match goal with
    | H : get_conn _ (s_conns _) = Some _ |- _ => progress (cbn [s_conns say with_phase with_regs with_clients with_conns put_conn with_res with_counts with_ch upd_ch taken] in H; rewrite ?Mv in H)
    | H : get_conn _ (set_conn ?b _ _) = Some _ |- _ => rewrite get_set in H; destruct (baddr_eqb b _); [injection H as <-; cbn [k_errored]|] end;
    try reflexivity; try assumption; try (eapply F; eassumption).
Qed.

Lemma reach_unerrored E h s : reach E h s -> (forall a e, ~ In (EvNet a (IErr e)) h) -> forall a k, get_conn a (s_conns s) = Some k -> k_errored k = false.
Proof.
  revert s. induction h as [|e h IH] using rev_ind; intros s H N; [injection H as <-; discriminate|].
  unfold reach in H. rewrite run_app in H. destruct (run E sys_init h) as [s0|] eqn:R; [|discriminate]. cbn [run] in H. destruct (step E s0 e) as [s1|] eqn:S; [|discriminate]. injection H as <-.
  apply (errored_step E s0 e s1 (step_trans _ _ _ _ (reach_wf E h s0 R) S)).
  - intros a x ->. apply (N a x), in_elt.
  - apply (IH s0 R). intros a x X. apply (N a x), in_app_iff. now left.
Qed.
(** Who has made a request has been registered, or is about to be. *)
Definition known (s : sys) : list nat := map rc_h (s_clients s) ++ regq_handles s.
Lemma map_move id a l : map rc_h (move_client id a l) = map rc_h l.
Proof. unfold move_client. rewrite map_map. apply map_ext. intros c. now destruct (_ =? _)%N. Qed.
Lemma owner_step E s e s' : inv E s -> trans E s e s' -> (forall c n o, In (OIssue c n o) (s_log s) -> In c (known s)) -> forall c n o, In (OIssue c n o) (s_log s') -> In c (known s').
Proof.
  intros I T O c n o Hi.
  assert (Sub : incl (known s) (known s')).
  { clear Hi. destruct T;
      repeat match goal with F : fwd _ _ _ _ _ |- _ => destruct F | S : sent _ _ _ _ _ |- _ => destruct S end;
      rewrite ?stop_eq; unfold known, regq_handles, moved; repeat match goal with |- context[if baddr_eqb ?x ?y then _ else _] => destruct (baddr_eqb x y) end;
      cbn [s_clients s_regq say with_phase with_regs with_clients with_conns put_conn with_res with_counts with_ch with_ids upd_ch delivered dead popped taken]; rewrite ?map_move;
      try (intros ? ?; assumption).
    all: try (match goal with Q : s_regq _ = _ |- _ => rewrite Q end); rewrite ?map_app; cbn [map fst rc_h]; intros ? ?; rewrite ?in_app_iff in *; cbn [In] in *; tauto. }
  destruct (trans_issue E s e s' T) as (l & El & Hl). rewrite El in Hi. apply in_app_iff in Hi as [Hi|Hi]; [apply Sub; eauto|].
  destruct (Hl c n o Hi) as (-> & A & B). apply Sub.
  inversion T; subst.
  - match goal with X : ch_engine _ = true |- _ => apply (h_engine s (v_h E s I)) in X as [[X _]|[X _]] end; unfold known; apply in_app_iff; auto.
  - exfalso. match goal with X : s_log _ = s_log s ++ l |- _ => cbn [s_log say] in X; apply app_inv_head in X; subst l end. destruct Hi as [Hi|[]]. discriminate Hi.
Qed.
Lemma reach_known E h s : reach E h s -> forall c n o, In (OIssue c n o) (s_log s) -> In c (known s).
Proof.
  revert s. induction h as [|e h IH] using rev_ind; intros s H; [injection H as <-; intros c n o []|].
  unfold reach in H. rewrite run_app in H. destruct (run E sys_init h) as [s0|] eqn:R; [|discriminate]. cbn [run] in H. destruct (step E s0 e) as [s1|] eqn:S; [|discriminate]. injection H as <-.
  exact (owner_step E s0 e s1 (reach_all E h s0 R) (step_trans _ _ _ _ (reach_wf E h s0 R) S) (IH s0 R)).
Qed.

(** * What is queued can be written *)
Lemma sensible_queued E h s a : reach E h s -> sensible E (s_log s) -> forall n o, In (n, o) (SpecEngine.queued a (s_log s)) -> sendable_request o.
Proof.
  intros H (Sm & Sa & Sd) n o Q.
  unfold SpecEngine.queued in Q. apply in_flat_map in Q as (x & Hx & Q). destruct x; try (destruct Q; fail).
  2:{ destruct (baddr_eqb _ _); [|destruct Q]. destruct Q as [Q|[]]. injection Q as <- <-. repeat split; discriminate. }
  destruct (baddr_eqb _ _); [|destruct Q]. destruct Q as [Q|[]]. injection Q as <- ->.
  apply in_split in Hx as (l1 & l2 & El). destruct (reach_entries E h s H _ _ _ El) as (_ & _ & _ & _ & q & [c Rq] & Fo).
  assert (Iq : In (OIssue c n0 q) (s_log s)) by (rewrite El; apply in_app_iff; now left). destruct (Sm c n0 q Iq) as [Ro Rw].
  assert (Ap : exists id, api_request id q = true) by (destruct (c_api E s (v_c E s (reach_all E h s H)) c n0 q Iq) as [_ X]; eauto).
  destruct Ap as [id Ap]. unfold formed in Fo.
  assert (Dq : (exists r, q = OConnect r) \/ o = q) by (destruct q; try (right; exact Fo); left; eexists; reflexivity).
  destruct Dq as [[r ->]| ->]; [|split; [exact Ro|]; split; [lia|]; intros ->; discriminate Ap].
  destruct Fo as (d & m & -> & Fo). destruct (api_connect E h s n0 r H (ex_intro _ c Iq)) as (A1 & A2 & A3).
  cbn [req_ok req_weight] in Ro, Rw. rewrite A1, A2 in *.
  assert (W : match fill_address (e_cfg E) (cn_addr r) with Proxy _ p => string_ok p | _ => True end /\ (match fill_address (e_cfg E) (cn_addr r) with Proxy _ p => blen p | _ => 0 end < 2 ^ 29)%N).
  { destruct A3 as [A3|[p A3]]; rewrite A3 in *; cbn; split; try exact Logic.I; try lia; try (apply Ro); cbn [opt_len] in Rw; lia. }
  destruct W as [W1 W2]. split; [|split; [|discriminate]]; cbn [req_ok req_weight cn_auth_data cn_auth_method cn_addr].
  - split; [|exact W1]. destruct (e_auth E); [destruct Fo as [-> _]|destruct Fo as [_ ->]]; [exact Sa|exact Logic.I].
  - destruct (e_auth E) as [meth|]; [destruct Fo as [-> (data & -> & Fo)]|destruct Fo as [-> ->]]; cbn [opt_len] in *; [|lia].
    assert (Sz : (blen data + blen meth < 2 ^ 29)%N) by (apply Sd; right; exists n0; rewrite El; apply in_app_iff; now left). lia.
Qed.
Lemma sensible_unwritten E h s a : reach E h s -> sensible E (s_log s) -> forall n o, In (n, o) (unwritten a (s_log s)) -> sendable_request o.
Proof.
  intros H Se n o U. apply (sensible_queued E h s a H Se n o). unfold unwritten in U.
  rewrite <- (firstn_skipn (length (written a (s_log s))) (SpecEngine.queued a (s_log s))). apply in_app_iff. now right.
Qed.

(** * Steps that harm nothing *)
Lemma unharmed_snoc E h s e : reach E h s -> unharmed E h -> ~ gives_up e -> (forall a x, e <> EvNet a (IErr x)) -> (forall a, ~ breaks E s a e) -> unharmed E (h ++ [e]).
Proof.
  intros H (U1 & U2 & U3) G N B. split; [|split].
  - intros a (h1 & x & h2 & s1 & Eh & R & X). destruct h2 as [|y h2] using rev_ind.
    + apply app_inj_tail in Eh as [-> ->]. unfold reach in H, R. rewrite H in R. injection R as <-. exact (B a X).
    + rewrite app_comm_cons, app_assoc in Eh. apply app_inj_tail in Eh as [-> _]. apply (U1 a). exists h1, x, h2, s1. auto.
  - intros a x X. apply in_app_iff in X as [X|[X|[]]]; [exact (U2 a x X)|exact (N a x X)].
  - intros x X. apply in_app_iff in X as [X|[<-|[]]]; auto.
Qed.
Lemma able_unharmed E h s e : reach E h s -> unharmed E h -> sensible E (s_log s) -> able e = true -> unharmed E (h ++ [e]).
Proof.
  intros H U Se Ab. apply (unharmed_snoc E h s e H U).
  - destruct e; cbn [gives_up]; try exact (fun x => x); try discriminate Ab.
    + cbn in Ab. subst. exact (fun x => x).
    + cbn in Ab. destruct r as [d| |]; try discriminate Ab. intros X. exact (X d eq_refl).
    + cbn in Ab. subst. exact (fun x => x).
  - intros a x ->. discriminate Ab.
  - intros a B. pose proof B as B'. destruct B' as [X|[X|[(mc & X & _)|(now & io & n & o & rest & X & _)]]]; try (rewrite X in Ab; discriminate Ab).
    subst e. cbn [able] in Ab. apply andb_true_iff in Ab as [Ab _]. apply N.eqb_eq in Ab as ->.
    exact (C73_writing_breaks_nothing E s a 0%N io ltac:(reflexivity) (sensible_unwritten E h s a H Se) B).
Qed.
Lemma sensible_step E s e s' : trans E s e s' -> outside e = true -> sensible E (s_log s) -> sensible E (s_log s').
Proof.
  intros T O (S1 & S2 & S3). pose proof (tame_step E s e s' T O) as Ta. split; [|split; [exact S2|]].
  - intros c n o X. destruct (Ta _ X) as [Y|Y]; [eauto|destruct Y].
  - intros d [->|[n X]]; [apply S3; now left|]. destruct (Ta _ X) as [Y|Y]; [apply S3; eauto|cbn in Y; subst d; apply S3; now left].
Qed.
Lemma able_well e : able e = true -> well e.
Proof. destruct e; cbn; try discriminate; auto. - destruct r as [d| |]; try discriminate. eauto. - intros X. now apply andb_true_iff in X. Qed.

(** * To rest *)
Lemma unharmed_up E h s : reach E h s -> unharmed E h -> ~ In OStop (s_log s).
Proof. intros H (U1 & _ & U3). exact (C73_stays_up E h s H U1 U3). Qed.
Lemma unharmed_none_lost E h s : reach E h s -> unharmed E h -> none_lost s.
Proof.
  intros H U a D. apply (proj1 (C45_connections_are_dialled E h s H) a) in D as [k K]. exists k. split; [exact K|].
  destruct (k_alive k) eqn:A; [reflexivity|]. exfalso. exact (proj1 U a (C73_connection_gone E h s a k H (unharmed_up E h s H U) K A)).
Qed.
Lemma helped_app E will s h s1 h2 s2 : helped E will s h s1 -> helped E will s1 h2 s2 -> helped E will s (h ++ h2) s2.
Proof. intros A B. induction A; cbn [app]; [exact B|eapply helped_task; eauto|eapply helped_answer; eauto]. Qed.
(** What no step of the tasks and no answer changes. *)
Record fair (E : env) (rank : nat -> baddr -> nat) (I0 : list nat) (h : list event) (s : sys) : Prop := mk_fair {
  fa_reach : reach E h s; fa_polled : as_polled E rank h; fa_unharmed : unharmed E h; fa_sensible : sensible E (s_log s);
  fa_issued : forall c n o, In (OIssue c n o) (s_log s) -> In n I0 }.
Lemma fair_step E rank I0 h s e s' : fair E rank I0 h s -> step E s e = Some s' -> outside e = true -> may_take rank s e -> unharmed E (h ++ [e]) -> fair E rank I0 (h ++ [e]) s'.
Proof.
  intros [H Po U Se Is] S O M U'. pose proof (step_trans _ _ _ _ (reach_wf E h s H) S) as T. split.
  - apply (reach_app E h s [e] s' H). cbn [run]. now rewrite S.
  - exact (polled_snoc E rank h e s Po H M).
  - exact U'.
  - exact (sensible_step E s e s' T O Se).
  - intros c n o X. destruct (tame_step E s e s' T O _ X) as [Y|Y]; [eauto|destruct Y].
Qed.
Lemma to_rest E will rank I0 h s : fair E rank I0 h s ->
  exists h2 s2, helped E will s h2 s2 /\ fair E rank I0 (h ++ h2) s2 /\ at_rest E rank (h ++ h2) s2 /\ exists c, s_log s2 = s_log s ++ c.
Proof.
  remember (pending s) as n eqn:En. revert h s En. induction n as [n IH] using lt_wf_ind. intros h s -> F. pose proof F as [H Po U Se Is].
  destruct (quiet_or_step E rank h s H Po) as [Q|(e & s' & Ae & Te & S & Pe & Lt)].
  - exists [], s. rewrite app_nil_r. split; [constructor|]. split; [exact F|]. split; [now apply quiet_rest|]. exists []. now rewrite app_nil_r.
  - pose proof (step_trans _ _ _ _ (reach_wf E h s H) S) as T.
    assert (O : outside e = true) by (unfold outside; now rewrite Ae).
    assert (H' : reach E (h ++ [e]) s') by (apply (reach_app E h s [e] s' H); cbn [run]; now rewrite S).
    assert (F' : fair E rank I0 (h ++ [e]) s').
    { split; [exact H'|exact Pe|exact (able_unharmed E h s e H U Se Ae)|exact (sensible_step E s e s' T O Se)|].
      intros c n o X. destruct (tame_step E s e s' T O _ X) as [Y|Y]; [eauto|destruct Y]. }
    destruct (IH _ Lt (h ++ [e]) s' eq_refl F') as (h2 & s2 & R & F2 & A2 & c2 & L2). exists (e :: h2), s2. rewrite <- app_assoc in F2, A2. cbn [app] in F2, A2.
    split; [eapply helped_task; [exact (able_well e Ae)|exact S|exact R]|]. split; [exact F2|]. split; [exact A2|].
    destruct (trans_log E s e s' T) as (l & El & _). exists (l ++ c2). now rewrite L2, El, app_assoc.
Qed.

(** * What is still owed *)
Definition ansof (a : baddr) (k : kind) (x : obs) : bool := match x with OArrive b _ i => baddr_eqb a b && answersb k i | _ => false end.
Fixpoint has (n : nat) (l : list obs) : bool :=
  match l with
  | [] => false
  | x :: r => (match x with OWrite a (Some m) o _ => (m =? n) && match kind_of o with Some k => existsb (ansof a k) r | None => false end | _ => false end) || has n r
  end.
Definition wrote_by (n : nat) (x : obs) : bool := match x with OWrite _ (Some m) _ _ => m =? n | _ => false end.
Lemma has_app n l m : has n l = true -> has n (l ++ m) = true.
Proof.
  induction l as [|x l IH]; [discriminate|]. cbn [has app]. intros X. apply orb_true_iff in X as [X|X]; apply orb_true_iff; [left|right; auto].
  destruct x; try discriminate. destruct src; [|discriminate]. apply andb_true_iff in X as [X Y]. rewrite X. cbn [andb]. destruct (kind_of o); [|discriminate].
  rewrite existsb_app, Y. reflexivity.
Qed.
Lemma has_intro n l1 a o ok l2 k : kind_of o = Some k -> existsb (ansof a k) l2 = true -> has n (l1 ++ OWrite a (Some n) o ok :: l2) = true.
Proof.
  intros K X. induction l1 as [|x l1 IH]; cbn [app has]; [|rewrite IH; apply orb_true_r]. now rewrite Nat.eqb_refl, K, X.
Qed.
Lemma has_none n l1 r : (forall x, In x l1 -> wrote_by n x = false) -> has n (l1 ++ r) = has n r.
Proof.
  induction l1 as [|x l1 IH]; intros X; [reflexivity|]. cbn [app has]. rewrite IH by (intros y Y; apply X; now right). specialize (X x (or_introl eq_refl)).
  destruct x; try reflexivity. destruct src; [|reflexivity]. cbn [wrote_by] in X. now rewrite X.
Qed.
Lemma written_forward E h s a n o ok : reach E h s -> In (OWrite a (Some n) o ok) (s_log s) -> In (OForward n a o) (s_log s).
Proof. intros H X. apply in_split in X as (l1 & l2 & El). pose proof (reach_entries E h s H _ _ _ El) as Y. cbn [entry] in Y. rewrite El. apply in_app_iff. now left. Qed.
Lemma forward_once E h s n a b o o' : reach E h s -> In (OForward n a o) (s_log s) -> In (OForward n b o') (s_log s) -> a = b /\ o = o'.
Proof.
  intros H A B. apply in_split in A as (l1 & l2 & El). rewrite El in B. apply in_app_iff in B as [B|[B|B]].
  - destruct (reach_entries E h s H _ _ _ El) as (_ & _ & _ & X & _). now elim (X b o').
  - now injection B.
  - apply in_split in B as (m1 & m2 & ->). rewrite app_comm_cons, app_assoc in El. destruct (reach_entries E h s H _ _ _ El) as (_ & _ & _ & X & _).
    elim (X a o). apply in_elt.
Qed.
Lemma write_once E h s l1 a n o ok l2 : reach E h s -> s_log s = l1 ++ OWrite a (Some n) o ok :: l2 -> (forall x, In x l1 -> wrote_by n x = false) /\ (forall x, In x l2 -> wrote_by n x = false).
Proof.
  intros H El.
  assert (Nd : NoDup (srcs (written a (s_log s)))).
  { destruct (forwards_written E h s a H) as [[r Ia] Na]. rewrite Ia, PropReceipt.srcs_app in Na. now apply NoDup_app_l in Na. }
  assert (Wa : In (OWrite a (Some n) o ok) (s_log s)) by (rewrite El; apply in_elt).
  assert (G : forall x, In x (s_log s) -> wrote_by n x = true -> exists o' ok', x = OWrite a (Some n) o' ok').
  { intros x X Y. destruct x; try discriminate. destruct src; [|discriminate]. cbn [wrote_by] in Y. apply Nat.eqb_eq in Y. subst.
    destruct (forward_once E h s n a0 a _ _ H (written_forward E h s _ _ _ _ H X) (written_forward E h s _ _ _ _ H Wa)) as [-> ->]. eauto. }
  assert (W : forall l o' ok', In (OWrite a (Some n) o' ok') l -> In n (srcs (written a l))).
  { intros l o' ok' X. unfold srcs. apply in_flat_map. exists (Some n, o'). split; [|now left]. unfold written. apply in_flat_map. eexists. split; [exact X|]. cbn. rewrite baddr_eqb_refl. now left. }
  assert (Es : srcs (written a (s_log s)) = srcs (written a l1) ++ n :: srcs (written a l2)).
  { rewrite El. unfold written. rewrite flat_map_app. cbn [flat_map]. rewrite baddr_eqb_refl, !PropReceipt.srcs_app. reflexivity. }
  rewrite Es in Nd. apply NoDup_remove_2 in Nd.
  split; intros x X; destruct (wrote_by n x) eqn:Y; try reflexivity; exfalso; apply Nd, in_app_iff.
  - destruct (G x) as (o' & ok' & ->); [rewrite El; apply in_app_iff; now left|exact Y|]. left. eauto.
  - destruct (G x) as (o' & ok' & ->); [rewrite El; apply in_app_iff; right; now right|exact Y|]. right. eauto.
Qed.
Lemma answered_or l : all_answered l \/ exists l1 a n o ok l2 k, l = l1 ++ OWrite a (Some n) o ok :: l2 /\ kind_of o = Some k /\ expects k = true /\ existsb (ansof a k) l2 = false.
Proof.
  destruct (all_answeredb l) eqn:A; [left; now apply all_answeredb_spec|right]. induction l as [|x l IH]; [discriminate|].
  assert (R : all_answeredb l = false -> exists l1 a n o ok l2 k, x :: l = l1 ++ OWrite a (Some n) o ok :: l2 /\ kind_of o = Some k /\ expects k = true /\ existsb (ansof a k) l2 = false).
  { intros X. destruct (IH X) as (l1 & a & n & o & ok & l2 & k & -> & Y). exists (x :: l1), a, n, o, ok, l2, k. auto. }
  cbn [all_answeredb] in A. destruct x; auto. destruct src as [n|]; auto. apply andb_false_iff in A as [A|A]; [|auto].
  destruct (kind_of o) as [k|] eqn:K; [|discriminate]. apply orb_false_iff in A as [A B]. apply negb_false_iff in A. exists [], a, n, o, ok, l, k. auto.
Qed.
Lemma filter_less {A} (f g : A -> bool) l x : (forall y, f y = true -> g y = true) -> In x l -> f x = false -> g x = true -> length (filter f l) < length (filter g l).
Proof.
  intros S. assert (Le : forall l, length (filter f l) <= length (filter g l)).
  { clear l. induction l as [|y l IH]; [reflexivity|]. cbn [filter]. destruct (f y) eqn:F; [rewrite (S y F); cbn [length]; lia|]. destruct (g y); cbn [length]; lia. }
  induction l as [|y l IH]; [intros []|]. intros [->|X] F G; cbn [filter].
  - rewrite F, G. cbn [length]. specialize (Le l). lia.
  - specialize (IH X F G). destruct (f y) eqn:Fy; [rewrite (S y Fy); cbn [length]; lia|]. destruct (g y); cbn [length]; lia.
Qed.
Lemma filter_weaker {A} (f g : A -> bool) l : (forall y, f y = true -> g y = true) -> length (filter f l) <= length (filter g l).
Proof. intros S. induction l as [|y l IH]; [reflexivity|]. cbn [filter]. destruct (f y) eqn:F; [rewrite (S y F); cbn [length]; lia|]. destruct (g y); cbn [length]; lia. Qed.
(** Every kind of request that waits has an answer that can be sent. *)
Lemma willing_answers : some_answer found_topic.
Proof.
  assert (Fx : forall mc, cmd_ok mc = true -> (compute_size (mc_cmd mc) < 1200000000)%N -> mc_payload mc = None -> sendable mc).
  { intros mc A B C. apply fits_sendable. apply (cmd_fits mc A B). now rewrite C. }
  intros k X U; destruct k; try discriminate X.
  - exists (mk_cmd (base 3 3 [(1, PBytes (str "broker"))]%N) None), InConnected. split; [apply Fx; vm_compute; reflexivity|]. split; [vm_compute; reflexivity|]; split; exact Logic.I.
  - specialize (U seq eq_refl).
    set (r := [(1, uint 0); (2, uint seq); (3, PMsg [(1, PInt 5); (2, PInt 6)])]%N).
    exists (mk_cmd (base 7 7 r) None), (InReceipt 0 (Z.to_N (Z.of_N seq)) [(1, PInt 5); (2, PInt 6)]%N). split; [|split; [reflexivity|split; [exact Logic.I|]]].
    + apply Fx; [|unfold base, r, uint; cbn [mc_cmd]; assert (Hm : (blen (write_msg [(1%N, PInt 5); (2%N, PInt 6)]) < 100)%N) by (vm_compute; reflexivity); rewrite <- compute_size_ok in Hm; bound_size; lia|reflexivity].
      unfold cmd_ok. cbn [mc_cmd mc_payload]. rewrite andb_true_r. apply (base_wt 7 7 r (mkf 7 Opt (TMsg M_CommandSendReceipt)) M_CommandSendReceipt); try reflexivity; [cbn; tauto|].
      unfold r. eapply wt_intro; [reflexivity|reflexivity|reflexivity|]. eapply wt_intro; [reflexivity|reflexivity|apply int_u64; exact U|reflexivity].
    + rewrite N2Z.id. reflexivity.
  - exists (mk_cmd (base 38 38 [(1, PInt 0)]%N) None), (InAckReceipt 0 0). split; [apply Fx; vm_compute; reflexivity|]. split; [vm_compute; reflexivity|]; split; exact Logic.I.
  - exists (mk_cmd (base 24 24 [(1, PBytes (str "pulsar://b:1")); (3, PInt 1); (4, PInt 0); (8, PInt 0)]%N) None). eexists. split; [apply Fx; vm_compute; reflexivity|]. split; [vm_compute; reflexivity|]. split; [|exact Logic.I]. split; [reflexivity|]. split; vm_compute; reflexivity.
  - exists (mk_cmd (base 13 13 [(1, PInt 0)]%N) None), (InSuccess 0). split; [apply Fx; vm_compute; reflexivity|]. split; [vm_compute; reflexivity|]; split; exact Logic.I.
  - exists (mk_cmd (base 17 17 [(1, PInt 0); (2, PBytes (str "p"))]%N) None). eexists. split; [apply Fx; vm_compute; reflexivity|]. split; [vm_compute; reflexivity|]; split; exact Logic.I.
Qed.
(** What has been written is of sensible size. *)
Lemma written_seq E h s a n o ok k : reach E h s -> sensible E (s_log s) -> In (OWrite a (Some n) o ok) (s_log s) -> kind_of o = Some k -> forall seq, k = KSend seq -> u64 seq.
Proof.
  intros H (Sm & _) W K seq ->. pose proof (written_forward E h s a n o ok H W) as F. apply in_split in F as (l1 & l2 & El).
  destruct (reach_entries E h s H _ _ _ El) as (_ & _ & _ & _ & q & [c Rq] & Fo). unfold formed in Fo.
  destruct q; try (subst o; destruct (Sm c n _ ltac:(rewrite El; apply in_app_iff; left; exact Rq)) as [Ro _]; destruct s0; cbn in K; try discriminate K; injection K as <-; apply Ro);
    try (subst o; discriminate K). destruct Fo as (d & m & -> & _). discriminate K.
Qed.
(** A command that has not been answered can be. *)
Lemma answer_step E will rank I0 h s l1 a n o ok l2 k : some_answer will -> fair E rank I0 h s -> s_log s = l1 ++ OWrite a (Some n) o ok :: l2 -> kind_of o = Some k -> expects k = true -> existsb (ansof a k) l2 = false ->
  exists mc s', helped E will s [EvNet a (IFrame mc)] s' /\ fair E rank I0 (h ++ [EvNet a (IFrame mc)]) s' /\ has n (s_log s) = false /\ has n (s_log s') = true /\ exists c, s_log s' = s_log s ++ c.
Proof.
  intros Wi F El K X N. pose proof F as [H Po U Se Is].
  assert (Wr : In (OWrite a (Some n) o ok) (s_log s)) by (rewrite El; apply in_elt).
  destruct (Wi k X (written_seq E h s a n o ok k H Se Wr K)) as (mc & i & Sd & To & Wl & An).
  destruct (unharmed_none_lost E h s H U a (write_dialled E h s a _ _ _ H Wr)) as (kc & Kc & Al).
  pose proof (reach_unerrored E h s H (proj1 (proj2 U)) a kc Kc) as Er.
  assert (S : step E s (EvNet a (IFrame mc)) = Some (conn_net s a kc (IFrame mc))) by (cbn [step]; now rewrite Kc, Al, Er).
  remember (conn_net s a kc (IFrame mc)) as s' eqn:Es. clear Es. pose proof (step_trans _ _ _ _ (reach_wf E h s H) S) as T.
  assert (Lg : exists c, s_log s' = s_log s ++ OArrive a (s_narr s) i :: c).
  { inversion T; subst; try congruence;
      try (match goal with Y : to_inbound mc = Ok ?j |- _ => assert (j = i) as -> by congruence end).
    - match goal with Y : _ \/ _ |- _ => destruct Y as [Y|(_ & [Y|(mc' & Y & Z)])]; try discriminate Y; injection Y as <-; congruence end.
    - exists []. reflexivity.
    - exists []. reflexivity.
    - exfalso. apply (unharmed_up E h s H U), (i_stop s (v_s E s (reach_all E h s H))). assumption. }
  destruct Lg as [c Lg].
  exists mc, s'. split; [|split; [|split; [|split]]].
  - eapply helped_answer; [exact Sd|exact To|exact Wl| |exact S|constructor]. exists l1, n, o, ok, l2, k. repeat (split; [assumption|]). intros ser j Hj Aj.
    assert (Y : existsb (ansof a k) l2 = true); [|congruence]. apply existsb_exists. eexists. split; [exact Hj|]. cbn. rewrite baddr_eqb_refl. now apply answersb_spec.
  - apply (fair_step E rank I0 h s _ s' F S eq_refl Logic.I). apply (unharmed_snoc E h s _ H U).
    + exact (fun x => x).
    + intros b x Y. discriminate Y.
    + intros b [Y|[Y|[(mc' & Y & Z)|(now & io & q & r & rest & Y & _)]]]; try discriminate Y. injection Y as _ <-. congruence.
  - destruct (write_once E h s l1 a n o ok l2 H El) as [W1 W2]. rewrite El, (has_none n l1 _ W1). cbn [has]. rewrite K, N, andb_false_r. cbn [orb].
    rewrite <- (app_nil_r l2), (has_none n l2 [] W2). reflexivity.
  - rewrite Lg, El, <- app_assoc. cbn [app]. apply (has_intro n l1 a o ok _ k K). rewrite existsb_app. cbn [existsb ansof]. rewrite baddr_eqb_refl. apply answersb_spec in An. rewrite An. cbn [andb orb]. apply orb_true_r.
  - eexists. exact Lg.
Qed.

Lemma finish E will rank I0 h s : some_answer will -> fair E rank I0 h s ->
  exists h2 s2, helped E will s h2 s2 /\ fair E rank I0 (h ++ h2) s2 /\ at_rest E rank (h ++ h2) s2 /\ all_answered (s_log s2).
Proof.
  intros Wi. remember (length (filter (fun n => negb (has n (s_log s))) I0)) as m eqn:Em. revert h s Em. induction m as [m IH] using lt_wf_ind. intros h s -> F.
  destruct (to_rest E will rank I0 h s F) as (h1 & s1 & R1 & F1 & A1 & c1 & L1).
  destruct (answered_or (s_log s1)) as [An|(l1 & a & n & o & ok & l2 & k & El & K & X & N)]; [exists h1, s1; auto|].
  destruct (answer_step E will rank I0 (h ++ h1) s1 l1 a n o ok l2 k Wi F1 El K X N) as (mc & s2 & R2 & F2 & No & Ye & c2 & L2).
  assert (Lt : length (filter (fun n => negb (has n (s_log s2))) I0) < length (filter (fun n => negb (has n (s_log s))) I0)).
  { apply Nat.lt_le_trans with (length (filter (fun n => negb (has n (s_log s1))) I0)).
    - apply filter_less with n.
      + intros y Y. apply negb_true_iff in Y. apply negb_true_iff. destruct (has y (s_log s1)) eqn:Z; [|reflexivity]. rewrite L2, (has_app y _ c2 Z) in Y. discriminate.
      + pose proof F1 as [H1 _ _ _ Is1]. assert (Wr : In (OWrite a (Some n) o ok) (s_log s1)) by (rewrite El; apply in_elt).
        pose proof (written_forward E _ s1 a n o ok H1 Wr) as Fw. apply in_split in Fw as (m1 & m2 & Em). destruct (reach_entries E _ s1 H1 _ _ _ Em) as (_ & _ & _ & _ & q & [c Rq] & _).
        apply (Is1 c n q). rewrite Em. apply in_app_iff. now left.
      + now rewrite Ye.
      + now rewrite No.
    - apply filter_weaker. intros y Y. apply negb_true_iff in Y. apply negb_true_iff. destruct (has y (s_log s)) eqn:Z; [|reflexivity]. rewrite L1, (has_app y _ c1 Z) in Y. discriminate. }
  destruct (IH _ Lt _ s2 eq_refl F2) as (h3 & s3 & R3 & F3 & A3 & An3). exists (h1 ++ EvNet a (IFrame mc) :: h3), s3.
  assert (Eh : (h ++ h1 ++ EvNet a (IFrame mc) :: h3) = ((h ++ h1) ++ [EvNet a (IFrame mc)]) ++ h3) by (rewrite <- !app_assoc; reflexivity).
  rewrite Eh. split; [|auto]. apply (helped_app E will s h1 s1 (EvNet a (IFrame mc) :: h3) s3 R1). exact (helped_app E will s1 [_] s2 h3 s3 R2 R3).
Qed.
(** As long as nothing has failed, the tasks and the brokers can take every call that waits
    to its end, whatever state it is in: from any reachable state there is a continuation
    in which users do nothing, no call fails and the engine polls in its order, after which
    everything is at rest, nothing that was written is unanswered and every request that
    waits for a response has completed - its client has been registered by then. *)
Theorem C85_can_always_finish : forall E will rank h s, some_answer will -> reach E h s -> as_polled E rank h -> unharmed E h -> sensible E (s_log s) ->
  exists h2 s2, helped E will s h2 s2 /\ reach E (h ++ h2) s2 /\ as_polled E rank (h ++ h2) /\ at_rest E rank (h ++ h2) s2 /\ unharmed E (h ++ h2) /\ sensible E (s_log s2) /\ ~ In OStop (s_log s2) /\ none_lost s2 /\ all_answered (s_log s2) /\
    s_regq s2 = [] /\ forall c n o, In (OIssue c n o) (s_log s2) -> (exists id, In (c, id) (registered (s_log s2))) /\ (waits o = true -> In n (settled (s_log s2))).
Proof.
  intros E will rank h s Wi H Po U Se.
  set (I0 := flat_map (fun x => match x with OIssue _ n _ => [n] | _ => [] end) (s_log s)).
  assert (F : fair E rank I0 h s).
  { split; auto. intros c n o X. unfold I0. apply in_flat_map. eexists. split; [exact X|now left]. }
  destruct (finish E will rank I0 h s Wi F) as (h2 & s2 & R2 & F2 & A2 & An). destruct F2 as [H2 Po2 U2 Se2 _].
  pose proof (unharmed_up E _ s2 H2 U2) as Ns. pose proof (unharmed_none_lost E _ s2 H2 U2) as Nl.
  pose proof (C84_no_connect_left E rank _ s2 H2 Po2 A2 Ns Nl An) as Nc.
  destruct (C82_at_rest E rank _ s2 H2 Po2 A2) as [[X _]|(_ & _ & [(m & b & r & _ & X)|(Rq & _)])]; [contradiction|elim (Nc m X)|].
  exists h2, s2. repeat (split; [assumption|]). intros c n o Is.
  assert (Rc : exists id, In (c, id) (registered (s_log s2))).
  { pose proof (reach_known E _ s2 H2 c n o Is) as Kn. unfold known, regq_handles in Kn. rewrite Rq in Kn. cbn [map] in Kn. rewrite app_nil_r in Kn.
    apply in_map_iff in Kn as (x & <- & Hx). exists (rc_id x). rewrite (g_reg s2 (reach_gate E _ s2 H2)). unfold pairs. apply in_map_iff. eauto. }
  split; [exact Rc|]. destruct Rc as [id Rc]. unfold waits. destruct (kind_of o) as [k|] eqn:K; [|discriminate]. intros X.
  exact (C84_every_call_completes E rank _ s2 H2 Po2 A2 Ns Nl An c id n o k Rc Is K X).
Qed.
Print Assumptions C85_can_always_finish.

(** * A concrete run *)
Definition benign (e : event) : bool :=
  match e with
  | EvNet _ (IFrame mc) => match to_inbound mc with Panic => false | _ => true end
  | EvNet _ _ | EvDropClient _ | EvCancelReg _ | EvDropManager => false
  | EvStart b | EvDial b => b
  | EvAuth r => match r with Ok _ => true | _ => false end
  | EvWrite _ now _ => (now <? 2 ^ 64)%N
  | _ => true
  end.
Lemma sensible_before E l c : sensible E (l ++ c) -> sensible E l.
Proof.
  intros (A & B & C). split; [|split; [exact B|]]. - intros x n o X. apply (A x n o), in_app_iff. now left.
  - intros d [X|[n X]]; apply C; [now left|]. right. exists n. apply in_app_iff. now left.
Qed.
(** Frames that can be read, calls that succeed or are writes: nothing is harmed. *)
Lemma benign_unharmed E h s : reach E h s -> sensible E (s_log s) -> forallb benign h = true -> unharmed E h.
Proof.
  revert s. induction h as [|e h IH] using rev_ind; intros s H Se B.
  - split; [|split; [intros a x []|intros x []]]. intros a (h1 & e & h2 & s1 & X & _). destruct h1; discriminate.
  - apply reach_split in H as (s0 & H0 & S). destruct (trans_log E s0 e s (step_trans _ _ _ _ (reach_wf E h s0 H0) S)) as (c & Lc & _). rewrite Lc in Se. apply sensible_before in Se.
    rewrite forallb_app in B. apply andb_true_iff in B as [B Be]. cbn [forallb] in Be. rewrite andb_true_r in Be.
    apply (unharmed_snoc E h s0 e H0 (IH s0 H0 Se B)).
    + destruct e; cbn [gives_up]; try exact (fun x => x); try discriminate Be; cbn [benign] in Be; try (subst; exact (fun x => x)). destruct r; try discriminate Be. intros X. exact (X _ eq_refl).
    + intros a x ->. discriminate Be.
    + intros a X. pose proof X as X0. destruct X0 as [Y|[Y|[(mc & Y & Z)|(now & io & n & o & rest & Y & _)]]]; try (rewrite Y in Be; discriminate Be).
      * rewrite Y in Be. cbn [benign] in Be. rewrite Z in Be. discriminate Be.
      * subst e. cbn [benign] in Be. apply N.ltb_lt in Be. exact (C73_writing_breaks_nothing E s0 a now io Be (sensible_unwritten E h s0 a H0 Se) X).
Qed.
(** Two clients; one connects, then sends and acknowledges; the other asks for a connection
    through the proxy. Nothing of it has been answered yet. *)
Definition c_events : list event :=
  x_reg2 ++ x_connect 0 ++ [EvIssue 0%nat (OSend (SSingle (str "p") 0 18446744073709551615 (str "x"))); EvClient 0%nat; EvWrite xA 0 true; EvIssue 0%nat (x_ack 0); EvIssue 1%nat (proxy_connect (str "u"))].
Definition c_log : list obs := Eval vm_compute in match xrun c_events with Some l => l | None => [] end.
Example C85_meets : some_answer found_topic /\ exists s, reach xE c_events s /\ (forall rank, as_polled xE rank c_events) /\ unharmed xE c_events /\ sensible xE (s_log s) /\
  ~ all_answered (s_log s) /\ (exists n o, In (OIssue 0 n o) (s_log s) /\ waits o = true /\ ~ In n (settled (s_log s))) /\ exists n q, In (OIssue 1 n (OConnect q)) (s_log s) /\ ~ In n (takes (s_log s)).
Proof.
  split; [exact willing_answers|]. unfold reach. destruct (run xE sys_init c_events) as [s|] eqn:R; [|vm_compute in R; discriminate]. exists s. split; [reflexivity|].
  split; [apply orderly_polled; vm_compute; reflexivity|].
  assert (El : s_log s = c_log) by (vm_compute in R; injection R as <-; reflexivity).
  assert (Se : sensible xE (s_log s)).
  { rewrite El. split; [|split; [exact Logic.I|]].
    - unfold c_log. intros c n o X. cbn [In] in X.
      repeat (destruct X as [X|X]; [first [discriminate X|injection X as <- <- <-; split; [cbn [req_ok]; unfold opt_ok, string_ok, u64, mid_ok; repeat (first [apply Forall_cons|apply Forall_nil|split]); try exact Logic.I; vm_compute; reflexivity|vm_compute; reflexivity]]|]). destruct X.
    - intros d [->|[n X]]; [vm_compute; reflexivity|]. unfold c_log in X. cbn [In] in X. repeat (destruct X as [X|X]; [discriminate X|]). destruct X. }
  split; [apply (benign_unharmed xE c_events s R Se); vm_compute; reflexivity|]. split; [exact Se|]. rewrite El. split; [|split].
  - intros A. destruct (A (firstn (length c_log - 3) c_log) xA 1 (OSend (SSingle (str "p") 0 18446744073709551615 (str "x"))) true (skipn (length c_log - 2) c_log) (KSend 18446744073709551615) ltac:(vm_compute; reflexivity) eq_refl eq_refl) as (ser & i & X & _).
    vm_compute in X. repeat (destruct X as [X|X]; [discriminate X|]). destruct X.
  - exists 2, (x_ack 0). split; [unfold c_log; cbn [In]; tauto|]. split; [reflexivity|]. vm_compute. intros X. repeat (destruct X as [X|X]; [discriminate X|]). destruct X.
  - exists 3, (mk_connect None None (Some (Proxy [] (str "u")))). split; [unfold c_log; cbn [In]; tauto|]. vm_compute. intros X. repeat (destruct X as [X|X]; [discriminate X|]). destruct X.
Qed.
