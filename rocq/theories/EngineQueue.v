(** The queues: what each client has issued and what each connection has been
    given, has written, has read. *)
From Verif Require Import Bytes Errors Wire Proto Codec Address Message Client SpecKeys Engine SpecEngine EngineFacts EngineInv EngineReq EngineEv EngineConn EngineLog PropMessage.
Open Scope N_scope.
Arguments issued : simpl never.
Arguments forwarded : simpl never.
Arguments queued : simpl never.
Arguments written : simpl never.
Arguments arrivals : simpl never.
Arguments handles : simpl never.
Arguments in_nat : simpl never.

Lemma issued_app h a b : issued h (a ++ b) = issued h a ++ issued h b. Proof. apply flat_map_app. Qed.
Lemma forwarded_app a b : forwarded (a ++ b) = forwarded a ++ forwarded b. Proof. apply flat_map_app. Qed.
Lemma queued_app x a b : queued x (a ++ b) = queued x a ++ queued x b. Proof. apply flat_map_app. Qed.
Lemma written_app x a b : written x (a ++ b) = written x a ++ written x b. Proof. apply flat_map_app. Qed.
Lemma arrivals_app x a b : arrivals x (a ++ b) = arrivals x a ++ arrivals x b. Proof. apply flat_map_app. Qed.
Lemma handles_app x a b : handles x (a ++ b) = handles x a ++ handles x b. Proof. apply flat_map_app. Qed.
Definition unconnected (l : list inbound) : list inbound := flat_map (fun i => match i with InConnected => [] | _ => [i] end) l.
Lemma unconnected_app a b : unconnected (a ++ b) = unconnected a ++ unconnected b. Proof. apply flat_map_app. Qed.

Definition idle (x : obs) : bool :=
  match x with
  | OIssue _ _ _ | OTake _ | OForward _ _ _ | OPonged _ | OWrite _ _ _ _ => false
  | OArrive _ _ i | OHandle _ _ i => match i with InConnected => true | _ => false end
  | OGot _ i => match i with InPing => false | _ => true end
  | _ => true end.
Lemma idle_cancel ns : forallb idle (cancel_all ns) = true.
Proof. induction ns; auto. Qed.
Lemma idle_ends hs f : forallb idle (ends_log hs f) = true.
Proof. apply forallb_forall. intros x Hx. apply ends_log_cancel in Hx as [n ->]. reflexivity. Qed.
Lemma idle_stop s : forallb idle (stop_log s) = true.
Proof. unfold stop_log. rewrite forallb_app. cbn. now rewrite idle_cancel, idle_ends. Qed.
Lemma idle_nil {A} (f : obs -> list A) c : (forall x, idle x = true -> f x = []) -> forallb idle c = true -> flat_map f c = [].
Proof.
  intros Hf. induction c as [|x c IH]; cbn; auto. intros H. apply andb_true_iff in H as [H1 H2]. rewrite (Hf x H1). auto.
Qed.
Ltac idl := apply idle_nil; intros []; intros; try reflexivity; try discriminate;
  match goal with H : idle _ = true |- _ => cbn in H end; match goal with x : inbound |- _ => destruct x; try discriminate end; cbn; destruct (baddr_eqb _ _); reflexivity.
Lemma idle_issued h c : forallb idle c = true -> issued h c = []. Proof. idl. Qed.
Lemma idle_takes c : forallb idle c = true -> takes c = []. Proof. idl. Qed.
Lemma idle_forwarded c : forallb idle c = true -> forwarded c = []. Proof. idl. Qed.
Lemma idle_queued a c : forallb idle c = true -> queued a c = []. Proof. idl. Qed.
Lemma idle_written a c : forallb idle c = true -> written a c = []. Proof. idl. Qed.
Lemma idle_arrivals a c : forallb idle c = true -> arrivals a c = []. Proof. idl. Qed.
Lemma idle_handles a c : forallb idle c = true -> handles a c = []. Proof. idl. Qed.

Definition outs (l : list citem) : list (option nat * outbound) := map (fun x => (ci_src x, ci_out x)) l.
Definition out_ok (l : list obs) (a : baddr) (k : conn) : Prop :=
  exists lost, queued a l = written a l ++ lost ++ outs (k_e2n k) /\ (length lost <= 1)%nat /\ (k_alive k = true -> lost = []).
Definition in_ok (p : phase) (l : list obs) (a : baddr) (k : conn) : Prop :=
  exists lost, arrivals a l = handles a l ++ unconnected (map snd (k_n2e k)) ++ lost /\ (p <> PStop -> lost = []).
Record qinv (s : sys) : Prop := mk_qinv {
  q_up : forall h, issued h (s_log s) = filter (fun n => in_nat n (issued h (s_log s))) (takes (s_log s)) ++ map fst (ch_up (s_ch s h));
  q_none : forall a, get_conn a (s_conns s) = None ->
      queued a (s_log s) = [] /\ written a (s_log s) = [] /\ arrivals a (s_log s) = [] /\ handles a (s_log s) = [];
  q_out : forall a k, get_conn a (s_conns s) = Some k -> out_ok (s_log s) a k;
  q_in : forall a k, get_conn a (s_conns s) = Some k -> in_ok (s_phase s) (s_log s) a k;
  q_ping : forall h, ~ In InPing (ch_down (s_ch s h));
  q_got : forall h, ~ In (OGot h InPing) (s_log s) }.
(** Requests taken but not yet forwarded. *)
Definition tinv (s : sys) : Prop :=
  exists rest, takes (s_log s) = forwarded (s_log s) ++ rest /\
    match s_phase s with PAuth _ n _ | PDial _ n _ => rest = [n] | PStop => (length rest <= 1)%nat | _ => rest = [] end.

Definition same_conns (s s' : sys) : Prop := forall a,
  match get_conn a (s_conns s'), get_conn a (s_conns s) with
  | Some k', Some k => k_e2n k' = k_e2n k /\ k_n2e k' = k_n2e k /\ (k_alive k' = true -> k_alive k = true)
  | Some k', None => k_e2n k' = [] /\ k_n2e k' = []
  | None, None => True
  | None, Some _ => False
  end.
Lemma same_conns_refl s s' : s_conns s' = s_conns s -> same_conns s s'.
Proof. intros H a. rewrite H. destruct (get_conn a (s_conns s)); auto. Qed.
Lemma same_conns_put s s' a k0 k : s_conns s' = set_conn a k (s_conns s) -> get_conn a (s_conns s) = Some k0 ->
  k_e2n k = k_e2n k0 -> k_n2e k = k_n2e k0 -> (k_alive k = true -> k_alive k0 = true) -> same_conns s s'.
Proof.
  intros H H0 H1 H2 H3 b. rewrite H, get_set. destruct (baddr_eqb a b) eqn:X.
  - apply baddr_eqb_spec in X. subst b. rewrite H0. auto.
  - destruct (get_conn b (s_conns s)); auto.
Qed.
Lemma same_conns_new s s' a : s_conns s' = set_conn a conn_init (s_conns s) -> get_conn a (s_conns s) = None -> same_conns s s'.
Proof.
  intros H H0 b. rewrite H, get_set. destruct (baddr_eqb a b) eqn:X.
  - apply baddr_eqb_spec in X. subst b. rewrite H0. auto.
  - destruct (get_conn b (s_conns s)); auto.
Qed.
Lemma qinv_gen s s' c :
  qinv s -> s_log s' = s_log s ++ c -> forallb idle c = true -> same_conns s s' ->
  (s_phase s = PStop -> s_phase s' = PStop) ->
  (forall h, ch_up (s_ch s' h) = ch_up (s_ch s h) /\ (In InPing (ch_down (s_ch s' h)) -> In InPing (ch_down (s_ch s h)))) -> qinv s'.
Proof.
  intros [Q1 Q2 Q3 Q4 Q5 Q6] El Hc Hk Hp Hch.
  assert (G : forall a, queued a (s_log s') = queued a (s_log s) /\ written a (s_log s') = written a (s_log s) /\ arrivals a (s_log s') = arrivals a (s_log s) /\ handles a (s_log s') = handles a (s_log s)).
  { intros a. rewrite El, queued_app, written_app, arrivals_app, handles_app, (idle_queued a c Hc), (idle_written a c Hc), (idle_arrivals a c Hc), (idle_handles a c Hc), !app_nil_r; auto. }
  constructor.
  - intros h. destruct (Hch h) as [-> _]. rewrite El, issued_app, takes_app, (idle_issued h c Hc), (idle_takes c Hc), !app_nil_r. auto.
  - intros a Ha. destruct (G a) as (-> & -> & -> & ->). apply Q2. specialize (Hk a). rewrite Ha in Hk. destruct (get_conn a (s_conns s)); tauto.
  - intros a k Ha. destruct (G a) as (G1 & G2 & _). unfold out_ok. rewrite G1, G2. specialize (Hk a). rewrite Ha in Hk. destruct (get_conn a (s_conns s)) as [k0|] eqn:K.
    + destruct Hk as (-> & _ & X). destruct (Q3 a k0 K) as (lost & A & B & C). exists lost. auto.
    + destruct Hk as (-> & _). destruct (Q2 a K) as (-> & -> & _). exists []. cbn. auto.
  - intros a k Ha. destruct (G a) as (_ & _ & G1 & G2). unfold in_ok. rewrite G1, G2. specialize (Hk a). rewrite Ha in Hk. destruct (get_conn a (s_conns s)) as [k0|] eqn:K.
    + destruct Hk as (_ & -> & X). destruct (Q4 a k0 K) as (lost & A & B). exists lost. split; auto.
    + destruct Hk as (_ & ->). destruct (Q2 a K) as (_ & _ & -> & ->). exists []. cbn. auto.
  - intros h X. destruct (Hch h) as [_ Y]. apply (Q5 h). auto.
  - intros h X. rewrite El in X. apply in_app_iff in X as [X|X]; [now apply (Q6 h)|]. rewrite forallb_forall in Hc. apply Hc in X. discriminate.
Qed.
Lemma qinv_stop s : qinv s -> qinv (stop s).
Proof.
  intros Q. apply (qinv_gen s _ (stop_log s) Q).
  - apply stop_log_eq.
  - apply idle_stop.
  - apply same_conns_refl. now rewrite stop_eq.
  - now rewrite stop_eq.
  - intros h. rewrite stop_eq. pj. rewrite ends_ch_at. destruct (is_in h (ended s)); cbn; auto.
Qed.
(** One entry about one connection. *)
Lemma one_conn s s' a k k' c :
  qinv s -> get_conn a (s_conns s) = Some k -> s_conns s' = set_conn a k' (s_conns s) -> s_log s' = s_log s ++ c ->
  (forall h, issued h c = []) -> takes c = [] -> (forall h, ~ In (OGot h InPing) c) ->
  (forall b, baddr_eqb a b = false -> queued b c = [] /\ written b c = [] /\ arrivals b c = [] /\ handles b c = []) ->
  (s_phase s = PStop -> s_phase s' = PStop) ->
  (forall h, ch_up (s_ch s' h) = ch_up (s_ch s h) /\ (In InPing (ch_down (s_ch s' h)) -> In InPing (ch_down (s_ch s h)))) ->
  out_ok (s_log s') a k' -> in_ok (s_phase s') (s_log s') a k' -> qinv s'.
Proof.
  intros [Q1 Q2 Q3 Q4 Q5 Q6] Ha Hs El Hi Ht Hg Hb Hp Hch Ho Hin.
  constructor.
  - intros h. destruct (Hch h) as [-> _]. rewrite El, issued_app, takes_app, Hi, Ht, !app_nil_r. auto.
  - intros b X. rewrite Hs, get_set in X. destruct (baddr_eqb a b) eqn:Y; [discriminate|]. destruct (Hb b Y) as (B1 & B2 & B3 & B4).
    rewrite El, queued_app, written_app, arrivals_app, handles_app, B1, B2, B3, B4, !app_nil_r. auto.
  - intros b x X. rewrite Hs, get_set in X. destruct (baddr_eqb a b) eqn:Y.
    + apply baddr_eqb_spec in Y. subst b. injection X as <-. exact Ho.
    + destruct (Hb b Y) as (B1 & B2 & _). unfold out_ok. rewrite El, queued_app, written_app, B1, B2, !app_nil_r. exact (Q3 b x X).
  - intros b x X. rewrite Hs, get_set in X. destruct (baddr_eqb a b) eqn:Y.
    + apply baddr_eqb_spec in Y. subst b. injection X as <-. exact Hin.
    + destruct (Hb b Y) as (_ & _ & B1 & B2). unfold in_ok. rewrite El, arrivals_app, handles_app, B1, B2, !app_nil_r.
      destruct (Q4 b x X) as (lost & A & B). exists lost. split; auto.
  - intros h X. destruct (Hch h) as [_ Y]. apply (Q5 h). auto.
  - intros h X. rewrite El in X. apply in_app_iff in X as [X|X]; [now apply (Q6 h)|now apply (Hg h)].
Qed.
Lemma eqb_sym_false a b : baddr_eqb a b = false -> baddr_eqb a b = false /\ baddr_eqb b a = false.
Proof. intros H. split; auto. apply baddr_eqb_neq. apply baddr_eqb_neq in H. congruence. Qed.
Ltac others := let b := fresh "b" in let X := fresh "X" in intros b X; apply eqb_sym_false in X as [X X']; unfold queued, written, arrivals, handles; cbn; rewrite ?X, ?X'; auto.
Ltac nogot := let h := fresh in let X := fresh in intros h X; cbn in X; repeat (destruct X as [X|X]; [discriminate|]); exact X.
Lemma qinv_fwd s id n o s' : qinv s -> s_phase s <> PStop -> fwd s id n o s' -> qinv s'.
Proof.
  intros Q Hp F. destruct F as [c k G1 G2 G3|]; [|now apply qinv_stop].
  eapply (one_conn s _ (rc_addr c) k _ [OForward n (rc_addr c) o] Q G2); try reflexivity; auto.
  - nogot.
  - others.
  - intros X. congruence.
  - destruct (q_out s Q _ _ G2) as (lost & A & B & C). exists []. cbn [k_e2n k_alive]. pj. rewrite queued_app, written_app.
    specialize (C G3). subst lost. rewrite A. assert (X : queued (rc_addr c) [OForward n (rc_addr c) o] = [(Some n, o)]) by (unfold queued; cbn; now rewrite baddr_eqb_refl).
    rewrite X. change (written (rc_addr c) [OForward n (rc_addr c) o]) with (@nil (option nat * outbound)). rewrite app_nil_r. split; [|auto].
    unfold outs. rewrite map_app. cbn. now rewrite app_assoc.
  - destruct (q_in s Q _ _ G2) as (lost & A & B). exists lost. pj. rewrite arrivals_app, handles_app. unfold arrivals, handles. cbn. rewrite !app_nil_r. auto.
Qed.
Lemma qinv_moved E s id c : qinv s -> qinv (moved E s id c).
Proof.
  intros Q. apply (qinv_gen s _ [] Q); auto.
  - rewrite moved_log. symmetry. apply app_nil_r.
  - apply same_conns_refl, moved_conns.
  - now rewrite moved_phase.
  - rewrite moved_ch. auto.
Qed.
Lemma filter_none {A} (f : A -> bool) l : (forall x, In x l -> f x = false) -> filter f l = [].
Proof. induction l as [|x l IH]; cbn; auto. intros H. rewrite (H x) by auto. apply IH. auto. Qed.
Lemma qinv_taken s h q n o res dropped :
  qinv s -> rinv s -> ch_up (s_ch s h) = (n, o) :: q -> qinv (taken s h q n res dropped).
Proof.
  intros Q R Hu. pose proof Q as [Q1 Q2 Q3 Q4 Q5 Q6].
  destruct (r_up s R h n o) as (U1 & U2 & _); [rewrite Hu; now left|].
  assert (Hd : forallb idle (cancel_all dropped) = true) by apply idle_cancel.
  assert (G : forall a, queued a (s_log (taken s h q n res dropped)) = queued a (s_log s) /\ written a (s_log (taken s h q n res dropped)) = written a (s_log s) /\ arrivals a (s_log (taken s h q n res dropped)) = arrivals a (s_log s) /\ handles a (s_log (taken s h q n res dropped)) = handles a (s_log s)).
  { intros a. rewrite taken_log, queued_app, written_app, arrivals_app, handles_app.
    change (OTake n :: cancel_all dropped) with ([OTake n] ++ cancel_all dropped).
    rewrite queued_app, written_app, arrivals_app, handles_app, (idle_queued a _ Hd), (idle_written a _ Hd), (idle_arrivals a _ Hd), (idle_handles a _ Hd).
    unfold queued, written, arrivals, handles. cbn. rewrite !app_nil_r. auto. }
  assert (Hi : forall x, issued x (s_log (taken s h q n res dropped)) = issued x (s_log s)).
  { intros x. rewrite taken_log, issued_app. change (OTake n :: cancel_all dropped) with ([OTake n] ++ cancel_all dropped).
    rewrite issued_app, (idle_issued x _ Hd). cbn. now rewrite app_nil_r. }
  assert (Hm : forall x, in_nat n (issued x (s_log s)) = (x =? h)%nat).
  { intros x. apply eq_iff_eq_true. unfold in_nat. rewrite existsb_exists, Nat.eqb_eq. split.
    - intros (y & Y & E). apply Nat.eqb_eq in E. subst y. apply in_flat_map in Y as (z & Z & Y). destruct z; cbn in Y; try contradiction.
      destruct (Nat.eqb_spec h0 x) as [->|]; [|contradiction]. destruct Y as [->|[]]. now destruct (r_uniq s R _ _ _ _ _ Z U1).
    - intros ->. exists n. split; [|now apply Nat.eqb_eq]. apply in_flat_map. exists (OIssue h n o). split; auto. cbn. rewrite Nat.eqb_refl. now left. }
  constructor.
  - intros x. rewrite Hi, taken_takes, filter_app. cbn [filter]. rewrite Hm. pj. unfold set_ch. rewrite (Nat.eqb_sym x h). specialize (Q1 x).
    destruct (Nat.eqb_spec h x) as [<-|Hn].
    + rewrite Q1 at 1. rewrite Hu. cbn. now rewrite <- app_assoc.
    + rewrite app_nil_r. exact Q1.
  - intros a. destruct (G a) as (-> & -> & -> & ->). apply Q2.
  - intros a k Hk. destruct (G a) as (G1 & G2 & _). unfold out_ok. rewrite G1, G2. exact (Q3 a k Hk).
  - intros a k Hk. destruct (G a) as (_ & _ & G1 & G2). unfold in_ok. rewrite G1, G2. exact (Q4 a k Hk).
  - intros x. pj. unfold set_ch. destruct (Nat.eqb_spec x h) as [->|]; cbn; auto.
  - intros x X. rewrite taken_log in X. apply in_app_iff in X as [X|X]; [now apply (Q6 x)|]. destruct X as [X|X]; [discriminate|].
    apply cancel_all_cancel in X as [? X]. discriminate.
Qed.
Lemma push_ping i hs f h : i <> InPing -> In InPing (ch_down (push_ch i hs f h)) -> In InPing (ch_down (f h)).
Proof.
  intros Hi. revert f. induction hs as [|y hs IH]; intros f; cbn [push_ch]; auto. intros X. apply IH in X.
  destruct (ch_client (f y)); auto. unfold set_ch in X. destruct (Nat.eqb_spec h y) as [->|]; auto. cbn in X. apply in_app_iff in X as [X|[X|[]]]; auto. congruence.
Qed.
Lemma fix_ping a i : fix_lookup a i = InPing -> i = InPing.
Proof. destruct i; cbn; congruence. Qed.
Lemma qinv_sent s a ser i s' : qinv s -> s_phase s <> PStop -> i <> InPing -> sent s a ser i s' -> qinv s'.
Proof.
  intros Q Hp Hi S. destruct S.
  - apply (qinv_gen s _ [OAnswer n ser i] Q); auto. now apply same_conns_refl.
  - apply (qinv_gen s _ [] Q); auto.
    + symmetry. apply app_nil_r.
    + now apply same_conns_refl.
    + intros h. pj. split; [apply push_ch_meta|now apply push_ping].
Qed.
Lemma ikey_kconnect i : ikey i = Some kconnect -> i = InConnected.
Proof. destruct i; auto; vm_compute; discriminate. Qed.
Lemma filter_ext_in' {A} (f g : A -> bool) l : (forall x, In x l -> f x = g x) -> filter f l = filter g l.
Proof. induction l as [|x l IH]; cbn; auto. intros H. rewrite (H x) by auto. rewrite IH by auto. reflexivity. Qed.
Lemma arrivals_one a n i : arrivals a [OArrive a n i] = unconnected [i].
Proof. unfold arrivals. cbn. now rewrite baddr_eqb_refl. Qed.
Lemma handles_one a n i : handles a [OHandle a n i] = unconnected [i].
Proof. unfold handles. cbn. now rewrite baddr_eqb_refl. Qed.
Lemma out_push s a k x l' k' :
  out_ok (s_log s) a k -> k_alive k = true -> queued a l' = queued a (s_log s) ++ [x] -> written a l' = written a (s_log s) ->
  outs (k_e2n k') = outs (k_e2n k) ++ [x] -> out_ok l' a k'.
Proof.
  intros (lost & X & Y & Z) Ha H1 H2 H3. exists []. specialize (Z Ha). subst lost. cbn [app] in *.
  rewrite H1, H2, H3, X, <- app_assoc. auto.
Qed.
Lemma in_pop s a k ser i q p l' k' :
  in_ok (s_phase s) (s_log s) a k -> k_n2e k = (ser, i) :: q -> arrivals a l' = arrivals a (s_log s) -> handles a l' = handles a (s_log s) ++ unconnected [i] ->
  k_n2e k' = q -> (p <> PStop -> s_phase s <> PStop) -> in_ok p l' a k'.
Proof.
  intros (lost & X & Y) H0 H1 H2 H3 H4. exists lost. rewrite H0 in X. rewrite H1, H2, H3, X. split; auto.
  change (map snd ((ser, i) :: q)) with ([i] ++ map snd q). rewrite unconnected_app, <- !app_assoc. reflexivity.
Qed.
Lemma qinv_pop s a k ser i q :
  qinv s -> get_conn a (s_conns s) = Some k -> k_n2e k = (ser, i) :: q -> s_phase s <> PStop ->
  qinv (say (put_conn s a (mk_conn (k_e2n k) q (k_res k) (k_alive k) (k_errored k))) [OHandle a ser i]).
Proof.
  intros Q K Hq Hp. eapply (one_conn s _ a k _ [OHandle a ser i] Q K); try reflexivity; auto; [nogot|others| |].
  - destruct (q_out s Q _ _ K) as (lost & X & Y & Z). exists lost. cbn [k_e2n k_alive]. pj. rewrite queued_app, written_app.
    change (queued a [OHandle a ser i]) with (@nil (option nat * outbound)). change (written a [OHandle a ser i]) with (@nil (option nat * outbound)).
    rewrite !app_nil_r. auto.
  - apply (in_pop s a k ser i q _ _ _ (q_in s Q a k K) Hq); pj; auto.
    + rewrite arrivals_app. apply app_nil_r.
    + now rewrite handles_app, handles_one.
Qed.
Lemma set_twice a k k' l : set_conn a k' (set_conn a k l) = set_conn a k' l.
Proof.
  induction l as [|[b x] r IH]; cbn; [now rewrite baddr_eqb_refl|].
  destruct (baddr_eqb a b) eqn:X; cbn; [now rewrite baddr_eqb_refl|rewrite X; now f_equal].
Qed.
Lemma qinv_trans E s e s' : inv E s -> qinv s -> trans E s e s' -> qinv s'.
Proof.
  intros I Q T. pose proof I as [W Hh Hf R C A S].
  destruct T;
    repeat match goal with |- qinv (stop _) => apply qinv_stop end; try exact Q.
  Ltac qq s Q c := apply (qinv_gen s _ c Q); [try reflexivity; symmetry; apply app_nil_r|try reflexivity|try (apply same_conns_refl; reflexivity)|try (pj; tauto)|try (intros ?; split; [reflexivity|tauto])].
  Ltac chp := pj; let z := fresh "z" in intros z; unfold set_ch; match goal with |- context [(z =? ?y)%nat] => destruct (Nat.eqb_spec z y) end; [subst z; cbn; try tauto|auto].
  - qq s Q (@nil obs).
  - qq s Q (@nil obs). chp. destruct (Hf (s_nh s) (le_n _)) as [-> ->]. auto.
  - qq s Q [ORegErr (s_nh s)].
  - qq s Q [OConfirm h]. chp.
  - qq s Q [ORegErr h]. chp.
  - qq s Q (@nil obs). chp.
  - qq s Q (@nil obs).
  - qq s Q (ends_log (regq_handles s) (s_ch s)); [apply idle_ends|]. intros x. pj. rewrite ends_ch_at. destruct (is_in x _); cbn; auto.
  - (* issue *)
    pose proof Q as [Q1 Q2 Q3 Q4 Q5 Q6].
    assert (Hnew : forall x, ~ In (s_nreq s) (issued x (s_log s))).
    { intros x X. apply in_flat_map in X as (y & Y & X). destruct y; cbn in X; try contradiction. destruct (h0 =? x)%nat; [|contradiction].
      destruct X as [->|[]]. apply (r_lt s R) in Y. lia. }
    assert (Hnt : ~ In (s_nreq s) (takes (s_log s))).
    { intros X. apply (r_tk s R) in X as (o' & h' & X). apply (r_lt s R) in X. lia. }
    assert (G : forall a, queued a (s_log s ++ [OIssue h (s_nreq s) o]) = queued a (s_log s) /\ written a (s_log s ++ [OIssue h (s_nreq s) o]) = written a (s_log s) /\ arrivals a (s_log s ++ [OIssue h (s_nreq s) o]) = arrivals a (s_log s) /\ handles a (s_log s ++ [OIssue h (s_nreq s) o]) = handles a (s_log s)).
    { intros a. rewrite queued_app, written_app, arrivals_app, handles_app. unfold queued, written, arrivals, handles. cbn. rewrite !app_nil_r. auto. }
    constructor; pj.
    + intros x. rewrite issued_app, takes_app.
      assert (X1 : issued x [OIssue h (s_nreq s) o] = if (h =? x)%nat then [s_nreq s] else []) by (unfold issued; cbn; now destruct (h =? x)%nat).
      rewrite X1. clear X1. change (takes [OIssue h (s_nreq s) o]) with (@nil nat). rewrite app_nil_r. unfold set_ch. rewrite (Nat.eqb_sym x h). destruct (Nat.eqb_spec h x) as [Ehx|Hn]; [subst x|].
      * rewrite (filter_ext_in' _ (fun n => in_nat n (issued h (s_log s)))).
        { cbn. rewrite map_app. cbn. rewrite app_assoc. f_equal. apply Q1. }
        intros y Y. apply eq_iff_eq_true. unfold in_nat. rewrite !existsb_exists. split; intros (z & Z & Ez); exists z; split; auto.
        { apply in_app_iff in Z as [Z|[Z|[]]]; auto. apply Nat.eqb_eq in Ez. subst. contradiction. }
        { apply in_app_iff; auto. }
      * rewrite app_nil_r. apply Q1.
    + intros a. destruct (G a) as (-> & -> & -> & ->). apply Q2.
    + intros a k Hk. destruct (G a) as (G1 & G2 & _). unfold out_ok. rewrite G1, G2. exact (Q3 a k Hk).
    + intros a k Hk. destruct (G a) as (_ & _ & G1 & G2). unfold in_ok. rewrite G1, G2. exact (Q4 a k Hk).
    + intros x. unfold set_ch. destruct (Nat.eqb_spec x h) as [->|]; cbn; auto.
    + intros x X. apply in_app_iff in X as [X|[X|[]]]; [now apply (Q6 x)|discriminate].
  - qq s Q [ORefuse h o].
  - (* receive *)
    pose proof Q as [Q1 Q2 Q3 Q4 Q5 Q6].
    assert (G : forall a, queued a (s_log s ++ [OGot h i]) = queued a (s_log s) /\ written a (s_log s ++ [OGot h i]) = written a (s_log s) /\ arrivals a (s_log s ++ [OGot h i]) = arrivals a (s_log s) /\ handles a (s_log s ++ [OGot h i]) = handles a (s_log s)).
    { intros a. rewrite queued_app, written_app, arrivals_app, handles_app. unfold queued, written, arrivals, handles. cbn. rewrite !app_nil_r. auto. }
    constructor; pj.
    + intros x. rewrite issued_app, takes_app. change (issued x [OGot h i]) with (@nil nat). change (takes [OGot h i]) with (@nil nat). rewrite !app_nil_r. unfold set_ch.
      destruct (Nat.eqb_spec x h) as [->|Hn]; apply Q1.
    + intros a. destruct (G a) as (-> & -> & -> & ->). apply Q2.
    + intros a k Hk. destruct (G a) as (G1 & G2 & _). unfold out_ok. rewrite G1, G2. exact (Q3 a k Hk).
    + intros a k Hk. destruct (G a) as (_ & _ & G1 & G2). unfold in_ok. rewrite G1, G2. exact (Q4 a k Hk).
    + intros x. unfold set_ch. destruct (Nat.eqb_spec x h) as [->|]; cbn; auto. intros X. apply (Q5 h). rewrite H1. now right.
    + intros x X. apply in_app_iff in X as [X|[X|[]]]; [now apply (Q6 x)|]. injection X as <- ->. apply (Q5 h). rewrite H1. now left.
  - qq s Q [OGone h].
  - qq s Q (if ch_engine (s_ch s h) then [] else cancel_all (queued_requests (s_ch s h))).
    + destruct (ch_engine (s_ch s h)); [reflexivity|apply idle_cancel].
    + chp.
  - apply (qinv_gen s _ [ODial (broker_address (e_cfg E)) true] Q); auto; try reflexivity; try (intros; congruence).
    destruct (wf_start E s W H) as [_ Wk]. eapply same_conns_new; [reflexivity|]. now rewrite Wk.
  - qq s Q [ODial (broker_address (e_cfg E)) false].
  - refine (qinv_fwd _ _ _ _ _ _ _ H5); [|pj; congruence]. eapply qinv_taken; eauto.
  - apply (qinv_gen (taken s h q n res dropped) _ []); auto.
    + eapply qinv_taken; eauto.
    + symmetry. apply app_nil_r.
    + now apply same_conns_refl.
    + pj. congruence.
  - apply (qinv_gen (taken s h q n res dropped) _ []); auto.
    + eapply qinv_taken; eauto.
    + symmetry. apply app_nil_r.
    + now apply same_conns_refl.
    + pj. congruence.
  - refine (qinv_fwd _ _ _ _ _ _ _ H6); [|rewrite moved_phase; pj; congruence]. apply qinv_moved. eapply qinv_taken; eauto.
  - qq s Q [OAuthed n r].
  - qq s Q [OAuthed n (Ok d)]. pj. congruence.
  - refine (qinv_fwd _ _ _ _ _ _ _ H1); [|rewrite moved_phase; pj; congruence]. apply qinv_moved. qq s Q [OAuthed n (Ok d)].
  - refine (qinv_fwd _ _ _ _ _ _ _ H0); [|rewrite moved_phase; pj; congruence]. apply qinv_moved.
    apply (qinv_gen s _ [ODial (caddr E c) true] Q); auto; try reflexivity.
    pose proof (wf_dial E s W) as Wd. rewrite H in Wd. eapply same_conns_new; [reflexivity|auto].
  - qq s Q [ODial (caddr E c) false].
  - (* a connect is answered *)
    pose proof (c_ph E s C) as P. unfold phase_ok in P. rewrite H in P. destruct P as (_ & _ & P). rewrite (P _ _ eq_refl) in *.
    refine (qinv_sent _ _ _ _ _ _ _ _ H0); [|pj; discriminate|discriminate].
    qq s Q [OHandle a ser InConnected]. pj. congruence.
  - (* pong *)
    eapply (one_conn s _ a k _ [OHandle a ser InPing; OPonged a] Q H1); try reflexivity; auto; [nogot|others| |].
    + apply (out_push s a k (None, OPong) _ _ (q_out s Q a k H1) H3); pj; auto.
      * rewrite queued_app. f_equal. unfold queued. cbn. now rewrite baddr_eqb_refl.
      * rewrite written_app. apply app_nil_r.
      * unfold outs. now rewrite map_app.
    + apply (in_pop s a k ser InPing q _ _ _ (q_in s Q a k H1) H2); pj; auto.
      * rewrite arrivals_app. apply app_nil_r.
      * rewrite handles_app. f_equal. unfold handles. cbn. now rewrite baddr_eqb_refl.
  - apply (qinv_pop s a k ser InPing q); auto. congruence.
  - refine (qinv_sent _ _ _ _ _ _ _ _ H4); [|pj; congruence|intros X; now apply fix_ping in X].
    apply (qinv_pop s a k ser i q); auto. congruence.
  - qq s Q [OReg h id].
  - qq s Q [OReg h id].
  - (* write *)
    eapply (one_conn s _ a k _ [OWrite a (ci_src x) (ci_out x) _] Q H); try reflexivity; auto; [nogot|others|pj; apply wake_stop| |].
    + destruct (q_out s Q _ _ H) as (lost & X & Y & Z). exists []. cbn [k_e2n k_alive]. pj. specialize (Z H0). subst lost. cbn [app] in *.
      rewrite queued_app, written_app, X, H1. unfold outs. cbn [map].
      match goal with |- context [queued a [OWrite ?p ?q ?r ?t]] =>
        assert (W1 : written a [OWrite p q r t] = [(q, r)]) by (unfold written; cbn; now rewrite baddr_eqb_refl); rewrite W1;
        change (queued a [OWrite p q r t]) with (@nil (option nat * outbound)) end.
      rewrite app_nil_r, <- app_assoc. auto.
    + destruct (q_in s Q _ _ H) as (lost & X & Y). exists lost. pj. rewrite arrivals_app, handles_app.
      match goal with |- context [arrivals a [OWrite ?p ?q ?r ?t]] => change (arrivals a [OWrite p q r t]) with (@nil inbound); change (handles a [OWrite p q r t]) with (@nil inbound) end.
      rewrite !app_nil_r. split; auto. intros Z. apply Y. intros P. apply Z. now apply wake_stop.
  - (* the conversion panics *)
    eapply (one_conn s _ a k _ [] Q H).
    + pj. apply set_twice.
    + symmetry. apply app_nil_r.
    + reflexivity.
    + reflexivity.
    + nogot.
    + auto.
    + pj. intros P. rewrite !wake_stop. exact P.
    + auto.
    + destruct (q_out s Q _ _ H) as (lost & X & Y & Z). exists [(ci_src x, ci_out x)]. cbn [k_e2n k_alive]. pj. specialize (Z H0). subst lost. cbn [app] in *.
      rewrite X, H1. split; auto. split; auto. discriminate.
    + destruct (q_in s Q _ _ H) as (lost & X & Y). exists lost. pj. split; auto. intros Z. apply Y. intros P. apply Z. now rewrite !wake_stop.
  - qq s Q (@nil obs); [|pj; apply wake_stop]. eapply same_conns_put; [reflexivity|eassumption|reflexivity|reflexivity|discriminate].
  - qq s Q (@nil obs); [|pj; apply wake_stop]. eapply same_conns_put; [reflexivity|eassumption|reflexivity|reflexivity|discriminate].
  - qq s Q (@nil obs). eapply same_conns_put; [reflexivity|eassumption|reflexivity|reflexivity|auto].
  - (* the answer to a connect *)
    assert (i = InConnected) as ->.
    { apply ikey_kconnect. unfold r_resolve in H3. destruct (ikey i) as [key|]; [|discriminate]. destruct (r_find key (k_res k)) as [m|] eqn:F; [|discriminate].
      apply r_find_in in F. destruct (c_res E s C a k key m H F) as [-> _]. reflexivity. }
    qq s Q [OArrive a (s_narr s) InConnected]; [|pj; apply wake_stop]. eapply same_conns_put; [reflexivity|eassumption|reflexivity|reflexivity|auto].
  - (* queued for the engine *)
    eapply (one_conn s _ a k _ [OArrive a (s_narr s) i] Q H); try reflexivity; auto; [nogot|others| |].
    + destruct (q_out s Q _ _ H) as (lost & X & Y & Z). exists lost. cbn [k_e2n k_alive]. pj. rewrite queued_app, written_app.
      change (queued a [OArrive a (s_narr s) i]) with (@nil (option nat * outbound)). change (written a [OArrive a (s_narr s) i]) with (@nil (option nat * outbound)).
      rewrite !app_nil_r. auto.
    + destruct (q_in s Q _ _ H) as (lost & X & Y). exists []. cbn [k_n2e]. pj. specialize (Y H4). subst lost. rewrite arrivals_app, handles_app, app_nil_r.
      change (handles a [OArrive a (s_narr s) i]) with (@nil inbound). 
      rewrite app_nil_r in X. rewrite arrivals_one, X, map_app, unconnected_app, <- ?app_assoc, ?app_nil_r. split; auto.
  - (* the engine is gone *)
    eapply (one_conn s _ a k _ [OArrive a (s_narr s) i] Q H); try reflexivity; auto; [nogot|others|pj; apply wake_stop| |].
    + destruct (q_out s Q _ _ H) as (lost & X & Y & Z). exists lost. cbn [k_e2n k_alive]. pj. rewrite queued_app, written_app.
      change (queued a [OArrive a (s_narr s) i]) with (@nil (option nat * outbound)). change (written a [OArrive a (s_narr s) i]) with (@nil (option nat * outbound)).
      rewrite !app_nil_r. split; auto.
    + destruct (q_in s Q _ _ H) as (lost & X & Y). exists (lost ++ unconnected [i]). cbn [k_n2e]. pj. rewrite arrivals_app, handles_app.
      change (handles a [OArrive a (s_narr s) i]) with (@nil inbound). rewrite app_nil_r, arrivals_one, X, <- !app_assoc. split; auto.
      intros Z. exfalso. apply Z. now apply wake_stop.
Qed.

(** * Takes and forwards *)
Definition tless (x : obs) : bool := match x with OTake _ | OForward _ _ _ => false | _ => true end.
Lemma tless_takes c : forallb tless c = true -> takes c = [] /\ forwarded c = [].
Proof.
  intros H. split; (induction c as [|x c IH]; [reflexivity|]); cbn in H; apply andb_true_iff in H as [H1 H2]; destruct x; try discriminate; apply (IH H2).
Qed.
Lemma tless_cancel ns : forallb tless (cancel_all ns) = true.
Proof. induction ns; auto. Qed.
Lemma tless_ends hs f : forallb tless (ends_log hs f) = true.
Proof. apply forallb_forall. intros x Hx. apply ends_log_cancel in Hx as [n ->]. reflexivity. Qed.
Lemma tless_stop s : forallb tless (stop_log s) = true.
Proof. unfold stop_log. rewrite forallb_app. cbn. now rewrite tless_cancel, tless_ends. Qed.
Definition pending_ok (p : phase) (rest : list nat) : Prop :=
  match p with PAuth _ n _ | PDial _ n _ => rest = [n] | PStop => (length rest <= 1)%nat | _ => rest = [] end.
Lemma tinv_gen s s' c : tinv s -> s_log s' = s_log s ++ c -> forallb tless c = true ->
  (forall r, pending_ok (s_phase s) r -> pending_ok (s_phase s') r) -> tinv s'.
Proof.
  intros (r & A & B) El Hc Hp. exists r. destruct (tless_takes c Hc) as [X Y]. rewrite El, takes_app, forwarded_app, X, Y, !app_nil_r.
  split; auto. now apply Hp.
Qed.
Lemma tinv_stop s : tinv s -> tinv (stop s).
Proof.
  intros T. apply (tinv_gen s _ (stop_log s) T (stop_log_eq s) (tless_stop s)).
  intros r. rewrite stop_eq. pj. destruct (s_phase s); cbn; intros; subst; auto.
Qed.
Lemma tinv_fwd s id n o s' : takes (s_log s) = forwarded (s_log s) ++ [n] -> fwd s id n o s' -> tinv s'.
Proof.
  intros T F. destruct F.
  - exists []. pj. rewrite takes_app, forwarded_app. change (takes [OForward n (rc_addr c) o]) with (@nil nat). change (forwarded [OForward n (rc_addr c) o]) with [n].
    rewrite !app_nil_r. split; auto. destruct (is_connect o); reflexivity.
  - exists [n]. destruct (tless_takes _ (tless_stop s)) as [X Y]. rewrite stop_log_eq, takes_app, forwarded_app, X, Y, !app_nil_r. split; auto.
    rewrite stop_eq. cbn. auto.
Qed.
Lemma tinv_taken s h q n res dropped : tinv s -> s_phase s = PRun ->
  takes (s_log (taken s h q n res dropped)) = forwarded (s_log (taken s h q n res dropped)) ++ [n].
Proof.
  intros (r & A & B) Hp. rewrite Hp in B. subst r. rewrite app_nil_r in A. rewrite taken_takes, A, taken_log, forwarded_app.
  change (OTake n :: cancel_all dropped) with ([OTake n] ++ cancel_all dropped). rewrite forwarded_app.
  destruct (tless_takes _ (tless_cancel dropped)) as [_ ->]. change (forwarded [OTake n]) with (@nil nat). now rewrite !app_nil_r.
Qed.
Lemma pending_wake ns w p r : pending_ok p r -> pending_ok (wake_ph ns w p) r.
Proof. destruct (wake_ph_cases ns w p) as [->|(a & m & -> & _ & ->)]; auto. Qed.
Lemma tinv_sent s a ser i s' : tinv s -> sent s a ser i s' -> tinv s'.
Proof.
  intros T S. destruct S.
  - apply (tinv_gen s _ [OAnswer n ser i] T); auto.
  - apply (tinv_gen s _ [] T); auto. symmetry. apply app_nil_r.
Qed.
Lemma tinv_trans E s e s' : tinv s -> trans E s e s' -> tinv s'.
Proof.
  intros Q T. destruct T;
    repeat match goal with |- tinv (stop _) => apply tinv_stop | X : tinv ?x |- tinv ?x => exact X end.
  Ltac tq s Q c := apply (tinv_gen s _ c Q); [try reflexivity; symmetry; apply app_nil_r|try reflexivity|try (intros ? ?; assumption)].
  - tq s Q (@nil obs).
  - tq s Q (@nil obs).
  - tq s Q [ORegErr (s_nh s)].
  - tq s Q [OConfirm h].
  - tq s Q [ORegErr h].
  - tq s Q (@nil obs).
  - tq s Q (@nil obs).
  - tq s Q (ends_log (regq_handles s) (s_ch s)). apply tless_ends.
  - tq s Q [OIssue h (s_nreq s) o].
  - tq s Q [ORefuse h o].
  - tq s Q [OGot h i].
  - tq s Q [OGone h].
  - tq s Q (if ch_engine (s_ch s h) then [] else cancel_all (queued_requests (s_ch s h))). destruct (ch_engine (s_ch s h)); [reflexivity|apply tless_cancel].
  - tq s Q [ODial (broker_address (e_cfg E)) true]. rewrite H. auto.
  - tq s Q [ODial (broker_address (e_cfg E)) false].
  - refine (tinv_fwd _ _ _ _ _ _ H5). now apply tinv_taken.
  - exists [n]. split; [|reflexivity]. now apply tinv_taken.
  - exists [n]. split; [|reflexivity]. now apply tinv_taken.
  - refine (tinv_fwd _ _ _ _ _ _ H6). rewrite moved_log. now apply tinv_taken.
  - tq s Q [OAuthed n r].
  - tq s Q [OAuthed n (Ok d)]. rewrite H. auto.
  - refine (tinv_fwd _ _ _ _ _ _ H1). rewrite moved_log. destruct Q as (r & A & B). rewrite H in B. subst r.
    pj. rewrite takes_app, forwarded_app, A. change (takes [OAuthed n (Ok d)]) with (@nil nat). change (forwarded [OAuthed n (Ok d)]) with (@nil nat). now rewrite !app_nil_r.
  - refine (tinv_fwd _ _ _ _ _ _ H0). rewrite moved_log. destruct Q as (r & A & B). rewrite H in B. subst r.
    pj. rewrite takes_app, forwarded_app, A. change (takes [ODial (caddr E c) true]) with (@nil nat). change (forwarded [ODial (caddr E c) true]) with (@nil nat). now rewrite !app_nil_r.
  - tq s Q [ODial (caddr E c) false].
  - refine (tinv_sent _ _ _ _ _ _ H0). tq s Q [OHandle a ser i]. rewrite H. auto.
  - tq s Q [OHandle a ser InPing; OPonged a].
  - tq s Q [OHandle a ser InPing].
  - refine (tinv_sent _ _ _ _ _ _ H4). tq s Q [OHandle a ser i].
  - tq s Q [OReg h id].
  - tq s Q [OReg h id].
  - match goal with |- tinv (say _ ?c) => tq s Q c end. intros r. apply pending_wake.
  - tq s Q (@nil obs). intros r X. pj. now apply pending_wake, pending_wake.
  - tq s Q (@nil obs). intros r. apply pending_wake.
  - tq s Q (@nil obs). intros r. apply pending_wake.
  - tq s Q (@nil obs).
  - tq s Q [OArrive a (s_narr s) i]. intros r. apply pending_wake.
  - tq s Q [OArrive a (s_narr s) i].
  - tq s Q [OArrive a (s_narr s) i]. intros r. apply pending_wake.
Qed.
Lemma reach_queues E h s : reach E h s -> qinv s /\ tinv s.
Proof.
  intros H. enough (inv E s /\ qinv s /\ tinv s) by tauto. revert h s H.
  apply (reach_inv E (fun s => inv E s /\ qinv s /\ tinv s)).
  - split; [apply inv_init|]. split; [|exists []; split; reflexivity].
    constructor; try reflexivity; cbn; auto; try discriminate.
  - intros s e s' _ (I & Q & T) X. split; [eapply inv_trans; eauto|]. split; [eapply qinv_trans; eauto|eapply tinv_trans; eauto].
Qed.
