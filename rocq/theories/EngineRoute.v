(** Where requests go: to the broker their client is assigned to. *)
From Verif Require Import Bytes Errors Wire Proto Codec Address Message Client SpecKeys Engine SpecEngine EngineFacts EngineInv EngineReq EngineEv EngineConn EngineLog EngineView.
Open Scope N_scope.

(** A request goes to the broker its client is assigned to; a connect that names
    another broker goes to that one. A client is registered once. It receives the
    next message of its inbox. *)
Definition route (E : env) (l1 : list obs) (x : obs) (l2 : list obs) : Prop :=
  match x with
  | OForward n a o => forall h q, In (OIssue h n q) l1 ->
      match q with
      | OConnect c => if baddr_eqb (fill_address (e_cfg E) (cn_addr c)) (svc E)
                      then v_home (look (svc E) h l1) = Some a else a = fill_address (e_cfg E) (cn_addr c)
      | _ => v_home (look (svc E) h l1) = Some a
      end
  | OReg h id => v_id (look (svc E) h l1) = None
  | OGot h (InMessage d) => exists r, v_inbox (look (svc E) h l1) = v_got (look (svc E) h l1) ++ d :: r
  | _ => True
  end.
Lemma route_closed E : forward_closed (route E).
Proof. intros l1 x l2 l3 H. destruct x; try exact H. Qed.
Definition still (x : obs) : bool := match x with OForward _ _ _ | OReg _ _ | OGot _ (InMessage _) => false | _ => true end.
Lemma still_cancel ns : forallb still (cancel_all ns) = true.
Proof. induction ns; auto. Qed.
Lemma still_ends hs f : forallb still (ends_log hs f) = true.
Proof. apply forallb_forall. intros x Hx. apply ends_log_cancel in Hx as [n ->]. reflexivity. Qed.
Lemma still_stop s : forallb still (stop_log s) = true.
Proof. unfold stop_log. rewrite forallb_app. cbn. now rewrite still_cancel, still_ends. Qed.
Lemma chunk_still E l c : forallb still c = true -> chunk (route E) l c.
Proof.
  intros H. apply chunk_all. intros l1 x l2 Hx. rewrite forallb_forall in H. apply H in Hx. destruct x as [| | | | | | | | | | | |? []| | | | | |]; try exact Logic.I; discriminate.
Qed.
Lemma route_still E s s' c : s_log s' = s_log s ++ c -> forallb still c = true -> exists c, s_log s' = s_log s ++ c /\ chunk (route E) (s_log s) c.
Proof. intros H Hc. exists c. split; auto. now apply chunk_still. Qed.
(** The requests' owner. *)
Definition owned (s : sys) (x : rclient) (n : nat) (q : outbound) : Prop :=
  In x (s_clients s) /\ In (OIssue (rc_h x) n q) (s_log s) /\ forall h' o', In (OIssue h' n o') (s_log s) -> h' = rc_h x /\ o' = q.
Lemma route_fwd E s0 n o x s' :
  vinv E s0 -> s_phase s0 <> PStop -> NoDup (map rc_id (s_clients s0)) -> owned s0 x n o -> is_connect o = false ->
  fwd s0 (rc_id x) n o s' -> exists c, s_log s' = s_log s0 ++ c /\ chunk (route E) (s_log s0) c.
Proof.
  intros V Hp Hnd (X1 & X2 & X3) Ho F. destruct F as [c0 k G1 G2 G3|c0 k G1 G2 G3].
  - apply get_client_in in G1 as [G1 G4]. assert (c0 = x) by (apply (nodup_id s0); auto). subst c0.
    eexists. split; [reflexivity|]. cbn [chunk]. split; [|exact Logic.I]. intros h q Hi. apply X3 in Hi as [-> ->].
    pose proof (w_home E s0 V Hp x X1) as Hh. destruct o; try exact Hh. discriminate.
  - exists (stop_log s0). rewrite stop_log_eq. split; auto. apply chunk_still, still_stop.
Qed.
Lemma route_connect E s1 s0 n c r x s' :
  vinv E s0 -> s_phase s0 <> PStop -> NoDup (map rc_id (s_clients s0)) -> owned s0 x n (OConnect r) ->
  caddr E c = fill_address (e_cfg E) (cn_addr r) -> s_clients s1 = s_clients (moved E s0 (rc_id x) c) -> s_log s1 = s_log s0 ->
  fwd s1 (rc_id x) n (OConnect c) s' -> exists c, s_log s' = s_log s0 ++ c /\ chunk (route E) (s_log s0) c.
Proof.
  intros V Hp Hnd (X1 & X2 & X3) Hc Ec El F. destruct F as [c0 k G1 G2 G3|c0 k G1 G2 G3].
  - apply get_client_in in G1 as [G1 G4]. eexists. split; [cbn; rewrite El; reflexivity|]. cbn [chunk]. split; [|exact Logic.I].
    intros h q Hi. apply X3 in Hi as [-> ->]. rewrite Ec in G1. unfold moved in G1. rewrite Hc in G1. fold (svc E) in G1.
    destruct (baddr_eqb (fill_address (e_cfg E) (cn_addr r)) (svc E)).
    + assert (c0 = x) by (apply (nodup_id s0); auto). subst c0. exact (w_home E s0 V Hp x X1).
    + cbn in G1. apply in_map_iff in G1 as (z & <- & Hz). destruct (N.eqb_spec (rc_id z) (rc_id x)) as [Eq|Hn]; [reflexivity|congruence].
  - exists (stop_log s1). rewrite stop_log_eq, El. split; auto. apply chunk_still, still_stop.
Qed.
Lemma route_pre E s s0 c0 s' :
  s_log s0 = s_log s ++ c0 -> forallb still c0 = true -> (exists c, s_log s' = s_log s0 ++ c /\ chunk (route E) (s_log s0) c) ->
  exists c, s_log s' = s_log s ++ c /\ chunk (route E) (s_log s) c.
Proof.
  intros El Hc (c & -> & X). exists (c0 ++ c). rewrite El, app_assoc. split; auto. apply chunk_app. split.
  - apply chunk_all. intros l1 y l2 Hy. rewrite forallb_forall in Hc. apply Hc in Hy. destruct y as [| | | | | | | | | | | |? []| | | | | |]; try exact Logic.I; discriminate.
  - now rewrite <- El.
Qed.
Lemma owned_say s c x n q : owned s x n q -> (forall h n o, ~ In (OIssue h n o) c) -> owned (say s c) x n q.
Proof.
  intros (A & B & C) H. split; auto. split; [apply in_app_iff; auto|]. intros h' o' X. apply in_app_iff in X as [X|X]; auto. now apply H in X.
Qed.
Lemma trans_routes E s e s' :
  inv E s -> NoDup (map rc_id (s_clients s)) -> vinv E s -> trans E s e s' -> exists c, s_log s' = s_log s ++ c /\ chunk (route E) (s_log s) c.
Proof.
  intros I Hnd V T. pose proof I as [W Hh Hf R C A S]. pose proof (w_ph E s V) as Wp. pose proof (c_ph E s C) as P.
  assert (G : s_log s' = s_log s -> exists c, s_log s' = s_log s ++ c /\ chunk (route E) (s_log s) c).
  { intros X. exists []. rewrite app_nil_r. split; [exact X|exact Logic.I]. }
  assert (Z : forall t c, s_log t = s_log s ++ c -> forallb still c = true -> exists c, s_log (stop t) = s_log s ++ c /\ chunk (route E) (s_log s) c).
  { intros t c X Y. apply (route_still E s _ (c ++ stop_log t)); [rewrite stop_log_eq, X, <- app_assoc; reflexivity|]. rewrite forallb_app, Y. apply still_stop. }
  assert (Own : forall h n o q, ch_up (s_ch s h) = (n, o) :: q -> forall c, In c (s_clients s) -> rc_h c = h -> owned s c n o).
  { intros h n o q Hu c Hc <-. destruct (r_up s R (rc_h c) n o) as (U1 & _); [rewrite Hu; now left|]. split; auto. split; auto.
    intros h' o' X. exact (r_uniq s R _ _ _ _ _ X U1). }
  assert (Own2 : forall id n c0 (q : connect_req), (exists c o, In c (s_clients s) /\ rc_id c = id /\ In (OIssue (rc_h c) n o) (s_log s)) ->
      (requested (s_log s) n (OConnect q)) -> c0 = q -> exists x, rc_id x = id /\ owned s x n (OConnect q)).
  { intros id n c0 q (c & o & X1 & X2 & X3) [h' Hq] _. exists c. split; auto. destruct (r_uniq s R _ _ _ _ _ X3 Hq) as [E1 E2]. subst h' o.
    split; auto. split; auto. intros h o' X. exact (r_uniq s R _ _ _ _ _ X Hq). }
  destruct T; try (apply G; reflexivity);
    try (apply (Z s []); [symmetry; apply app_nil_r|reflexivity]); unfold phase_ok in P;
    try (eapply route_still; [reflexivity|first [reflexivity|apply still_ends]]; fail);
    try (eapply Z; [reflexivity|reflexivity]; fail).
  - (* receive *)
    eexists. split; [reflexivity|]. cbn [chunk]. split; [|exact Logic.I]. destruct i; try exact Logic.I.
    destruct (w_in E s V h) as (rest & X & Y). rewrite (Y H) in X. rewrite H1 in X. cbn in X. eexists. exact X.
  - (* drop *)
    eapply route_still; [reflexivity|]. destruct (ch_engine (s_ch s h)); [reflexivity|apply still_cancel].
  - assert (Vt : vinv E (taken s h q n res dropped)) by (apply vinv_taken; auto; [congruence|now apply owner_run]).
    apply (route_pre E s (taken s h q n res dropped) (OTake n :: cancel_all dropped)); [apply taken_log|apply still_cancel|].
    refine (route_fwd E _ n o c s' Vt _ Hnd _ H4 H5); [pj; congruence|].
    destruct (Own h n o q H2 c H0 H1) as (O1 & O2 & O3). split; auto. split; [now apply taken_old|]. intros h' o' X. apply taken_old in X; auto.
  - eapply route_still; [apply taken_log|apply still_cancel].
  - eapply route_still; [apply taken_log|apply still_cancel].
  - assert (Vt : vinv E (taken s h q n res dropped)) by (apply vinv_taken; auto; [congruence|now apply owner_run]).
    apply (route_pre E s (taken s h q n res dropped) (OTake n :: cancel_all dropped)); [apply taken_log|apply still_cancel|].
    refine (route_connect E _ (taken s h q n res dropped) n (filled E r) r c s' Vt _ Hnd _ eq_refl eq_refl _ H6); [pj; congruence| |apply moved_log].
    destruct (Own h n _ q H2 c H0 H1) as (O1 & O2 & O3). split; auto. split; [now apply taken_old|]. intros h' o' X. apply taken_old in X; auto.
  - rewrite H in P. destruct P as (P1 & P2 & P3 & P4 & P5 & q & P6 & P7). unfold owner_ok in Wp. rewrite H in Wp.
    destruct (Own2 id n q q Wp P6 eq_refl) as (x & <- & Ow).
    assert (Vt : vinv E (say s [OAuthed n (Ok d)])) by now apply vinv_say.
    apply (route_pre E s (say s [OAuthed n (Ok d)]) [OAuthed n (Ok d)]); [reflexivity|reflexivity|].
    refine (route_connect E _ (say s [OAuthed n (Ok d)]) n _ q x s' Vt _ Hnd _ _ eq_refl _ H1); [pj; congruence| | |apply moved_log].
    + apply owned_say; auto. intros h' n' o' [X|[]]; discriminate.
    + rewrite P7. reflexivity.
  - rewrite H in P. destruct P as (P1 & P2 & P3 & q & P6 & P7). unfold owner_ok in Wp. rewrite H in Wp.
    destruct (Own2 id n q q Wp P6 eq_refl) as (x & <- & Ow).
    assert (Vt : vinv E (say s [ODial (caddr E c) true])) by now apply vinv_say.
    apply (route_pre E s (say s [ODial (caddr E c) true]) [ODial (caddr E c) true]); [reflexivity|reflexivity|].
    refine (route_connect E _ (say s [ODial (caddr E c) true]) n c q x s' Vt _ Hnd _ _ _ _ H0); [pj; congruence| | | |rewrite moved_log; reflexivity].
    + apply owned_say; auto. intros h' n' o' [X|[]]; discriminate.
    + destruct P7 as (dd & mm & P7 & _). injection P7 as ->. reflexivity.
    + unfold moved. destruct (baddr_eqb _ _); reflexivity.
  - destruct H0.
    + eapply (route_still E s _ [_; _]); [pj; rewrite <- app_assoc; reflexivity|reflexivity].
    + eapply route_still; [reflexivity|reflexivity].
  - destruct H4.
    + eapply (route_still E s _ [_; _]); [pj; rewrite <- app_assoc; reflexivity|reflexivity].
    + eapply route_still; [reflexivity|reflexivity].
  - eexists. split; [reflexivity|]. cbn [chunk]. split; [|exact Logic.I]. apply (w_no E s V). intros X.
    apply (NoDup_app_not _ _ h (h_nodup s Hh) X). unfold regq_handles. rewrite H0. now left.
  - eexists (OReg h id :: stop_log _). rewrite stop_log_eq. split; [cbn [s_log say]; rewrite <- app_assoc; reflexivity|]. cbn [chunk]. split; [|apply chunk_still, still_stop].
    apply (w_no E s V). intros X. apply (NoDup_app_not _ _ h (h_nodup s Hh) X). unfold regq_handles. rewrite H0. now left.
Qed.
Lemma reach_routes E h s : reach E h s -> newids h <= two64 -> every (route E) (s_log s).
Proof.
  intros H. refine (proj2 (run_ind E (fun h s => newids h <= two64 -> every (route E) (s_log s)) sys_init (wf_init E) _ _ h s H)).
  - intros _ l1 x l2 X. destruct l1; discriminate.
  - intros g t e t' Hg Wt IH Hs T Wt' Hn. pose proof (newids_prefix g e) as Hle. assert (Hn' : newids g <= two64) by lia.
    destruct (trans_routes E t e t' (reach_all E g t Hg)) as (c & -> & Hc); auto.
    + destruct (reach_ids E g t Hg) as [_ D]. exact (NoDup_app_l _ _ (proj1 (D Hn'))).
    + now apply (reach_views E g).
    + apply every_app; auto. apply route_closed.
Qed.
