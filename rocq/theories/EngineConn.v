(** Connects: one at a time, each forwarded once, with the plugin's credentials. *)
From Verif Require Import Bytes Errors Wire Proto Codec Address Message Client Engine SpecEngine EngineFacts EngineInv EngineReq EngineEv.
Open Scope N_scope.
Arguments takes _ : simpl never.
Arguments settled _ : simpl never.
Arguments handled _ : simpl never.

Definition kconnect : bytes := str "CONNECT".
Arguments kconnect : simpl never.
(** What is forwarded for request [q]: the request itself, or for a connect the
    request with its address filled in and the plugin's credentials for it. *)
Definition formed (E : env) (l : list obs) (n : nat) (q o : outbound) : Prop :=
  match q with
  | OConnect c => exists d m, o = OConnect (mk_connect d m (Some (fill_address (e_cfg E) (cn_addr c)))) /\
      match e_auth E with
      | None => d = None /\ m = None
      | Some meth => m = Some meth /\ exists data, d = Some data /\ In (OAuthed n (Ok data)) l
      end
  | _ => o = q
  end.
Arguments formed : simpl never.
Lemma formed_app E l c n q o : formed E l n q o -> formed E (l ++ c) n q o.
Proof.
  unfold formed. destruct q; auto. intros (d & m & H & H1). exists d, m. split; auto.
  destruct (e_auth E); auto. destruct H1 as (H1 & data & H2 & H3). split; auto. exists data. split; auto. apply in_app_iff; auto.
Qed.
Definition item_ok (l : list obs) (a : baddr) (x : citem) : Prop :=
  ci_wait x = is_connect (ci_out x) /\
  match ci_src x with Some n => In (OForward n a (ci_out x)) l | None => ci_out x = OPong end.
Definition phase_ok (E : env) (s : sys) : Prop :=
  match s_phase s with
  | PStart | PRun => r_find kconnect (s_res s) = None
  | PAuth id n c => r_find kconnect (s_res s) = Some n /\ In n (takes (s_log s)) /\ (forall a o, ~ In (OForward n a o) (s_log s)) /\
      (forall r, ~ In (OAuthed n r) (s_log s)) /\ e_auth E <> None /\ exists q, requested (s_log s) n (OConnect q) /\ c = filled E q
  | PDial id n c => r_find kconnect (s_res s) = Some n /\ In n (takes (s_log s)) /\ (forall a o, ~ In (OForward n a o) (s_log s)) /\
      exists q, requested (s_log s) n (OConnect q) /\ formed E (s_log s) n (OConnect q) (OConnect c)
  | PConn a n w => r_find kconnect (s_res s) = Some n /\ (exists c, In (OForward n a (OConnect c)) (s_log s)) /\
      (forall ser i, w = Answered ser i -> i = InConnected)
  | PStop => True
  end.
Record cinv (E : env) (s : sys) : Prop := mk_cinv {
  c_api : forall h n o, In (OIssue h n o) (s_log s) -> (h < s_nh s)%nat /\ api_request (ch_id (s_ch s h)) o = true;
  c_au : forall n r, In (OAuthed n r) (s_log s) -> In n (takes (s_log s));
  c_au1 : forall n r r', In (OAuthed n r) (s_log s) -> In (OAuthed n r') (s_log s) -> r = r';
  c_fw : forall n a o, In (OForward n a o) (s_log s) ->
      In n (takes (s_log s)) /\ exists q, requested (s_log s) n q /\ formed E (s_log s) n q o;
  c_fw1 : forall n a o b o', In (OForward n a o) (s_log s) -> In (OForward n b o') (s_log s) -> a = b /\ o = o';
  c_item : forall a k x, get_conn a (s_conns s) = Some k -> In x (k_e2n k) -> item_ok (s_log s) a x;
  c_res : forall a k key n, get_conn a (s_conns s) = Some k -> In (key, n) (k_res k) ->
      key = kconnect /\ exists c, In (OForward n a (OConnect c)) (s_log s);
  c_ph : phase_ok E s }.

Definition plain (x : obs) : bool := match x with OIssue _ _ _ | OForward _ _ _ | OAuthed _ _ => false | _ => true end.
Lemma plain_cancel ns : forallb plain (cancel_all ns) = true.
Proof. induction ns; auto. Qed.
Lemma plain_ends hs f : forallb plain (ends_log hs f) = true.
Proof. apply forallb_forall. intros x Hx. apply ends_log_cancel in Hx as [n ->]. reflexivity. Qed.
Lemma plain_not c x : forallb plain c = true -> plain x = false -> ~ In x c.
Proof. intros H Hx Hin. rewrite forallb_forall in H. apply H in Hin. congruence. Qed.
Lemma requested_app l c n o : requested l n o -> requested (l ++ c) n o.
Proof. intros [h H]. exists h. apply in_app_iff; auto. Qed.

Definition conns_from (s s' : sys) : Prop := forall a k, get_conn a (s_conns s') = Some k ->
  (k_e2n k = [] /\ k_res k = []) \/ exists k0, get_conn a (s_conns s) = Some k0 /\
     (forall x, In x (k_e2n k) -> In x (k_e2n k0) \/ x = mk_citem None OPong false) /\
     (forall p, In p (k_res k) -> In p (k_res k0) \/
        exists x n, In x (k_e2n k0) /\ ci_src x = Some n /\ is_connect (ci_out x) = true /\ p = (kconnect, n)).
Lemma conns_same s s' : s_conns s' = s_conns s -> conns_from s s'.
Proof. intros H a k Hk. rewrite H in Hk. right. exists k. auto. Qed.
Lemma cinv_gen E s s' c :
  cinv E s -> s_log s' = s_log s ++ c -> forallb plain c = true -> (s_nh s <= s_nh s')%nat ->
  (forall h, (h < s_nh s)%nat -> ch_id (s_ch s' h) = ch_id (s_ch s h)) -> conns_from s s' -> phase_ok E s' -> cinv E s'.
Proof.
  intros [C1 C2 C3 C4 C5 C6 C7 C8] El Hc Hn Hid Hk Hp.
  assert (Hold : forall x, plain x = false -> (In x (s_log s') <-> In x (s_log s))).
  { intros x Hx. rewrite El, in_app_iff. pose proof (plain_not c x Hc Hx). tauto. }
  assert (Hi : forall h n o, In (OIssue h n o) (s_log s') <-> In (OIssue h n o) (s_log s)) by (intros; now apply Hold).
  assert (Ha : forall n r, In (OAuthed n r) (s_log s') <-> In (OAuthed n r) (s_log s)) by (intros; now apply Hold).
  assert (Hf : forall n a o, In (OForward n a o) (s_log s') <-> In (OForward n a o) (s_log s)) by (intros; now apply Hold).
  assert (Ht : forall n, In n (takes (s_log s)) -> In n (takes (s_log s'))) by (intros n X; rewrite El, takes_app, in_app_iff; auto).
  constructor; auto.
  - intros h n o H. apply Hi, C1 in H as [H1 H2]. split; [lia|]. now rewrite Hid.
  - intros n r H. apply Ha in H. eauto.
  - intros n r r' X Y. apply Ha in X, Y. eauto.
  - intros n a o H. apply Hf, C4 in H as (X & q & Y & Z). split; auto. exists q. rewrite El. split; [now apply requested_app|now apply formed_app].
  - intros n a o b o' X Y. apply Hf in X, Y. eauto.
  - intros a k x Hka Hx. destruct (Hk a k Hka) as [[X _]|(k0 & Hk0 & X & _)]; [rewrite X in Hx; destruct Hx|].
    destruct (X x Hx) as [Y| ->]; [|split; reflexivity]. destruct (C6 a k0 x Hk0 Y) as [Z1 Z2]. split; auto.
    destruct (ci_src x); auto. now apply Hf.
  - intros a k key n Hka Hx. destruct (Hk a k Hka) as [[_ X]|(k0 & Hk0 & _ & X)]; [rewrite X in Hx; destruct Hx|].
    destruct (X _ Hx) as [Y|(x & m & Y1 & Y2 & Y3 & Y4)].
    + destruct (C7 a k0 key n Hk0 Y) as (Z1 & c0 & Z2). split; auto. exists c0. now apply Hf.
    + injection Y4 as -> ->. split; auto. destruct (C6 a k0 x Hk0 Y1) as [_ Z]. rewrite Y2 in Z.
      destruct (ci_out x); try discriminate. eexists. apply Hf, Z.
Qed.
Lemma phase_plain E s s' c :
  phase_ok E s -> s_log s' = s_log s ++ c -> forallb plain c = true -> r_find kconnect (s_res s') = r_find kconnect (s_res s) ->
  s_phase s' = s_phase s -> phase_ok E s'.
Proof.
  intros H El Hc Er Ep. unfold phase_ok in *. rewrite Ep, Er.
  assert (Hold : forall x, plain x = false -> (In x (s_log s') <-> In x (s_log s))).
  { intros x Hx. rewrite El, in_app_iff. pose proof (plain_not c x Hc Hx). tauto. }
  assert (Ht : forall n, In n (takes (s_log s)) -> In n (takes (s_log s'))) by (intros n X; rewrite El, takes_app, in_app_iff; auto).
  destruct (s_phase s); auto.
  - destruct H as (H1 & H2 & H3 & H4 & H5 & q & H6 & H7). repeat split; auto.
    + intros a o X. apply Hold in X; auto. eapply H3; eauto.
    + intros r X. apply Hold in X; auto. eapply H4; eauto.
    + exists q. rewrite El. split; auto. now apply requested_app.
  - destruct H as (H1 & H2 & H3 & q & H6 & H7). repeat split; auto.
    + intros a o X. apply Hold in X; auto. eapply H3; eauto.
    + exists q. rewrite El. split; [now apply requested_app|now apply formed_app].
  - destruct H as (H1 & (c0 & H2) & H3). repeat split; auto. exists c0. now apply Hold.
Qed.
Lemma phase_lost E s s' ns :
  phase_ok E s -> s_log s' = s_log s -> s_res s' = s_res s -> s_phase s' = wake_ph ns Lost (s_phase s) -> phase_ok E s'.
Proof.
  intros H El Er Ep. destruct (wake_ph_cases ns Lost (s_phase s)) as [X|(a & m & X & _ & Y)].
  - apply (phase_plain E s s' []); auto; [rewrite El; symmetry; apply app_nil_r|congruence|congruence].
  - unfold phase_ok in *. rewrite X in H. rewrite Ep, Y, Er, El. destruct H as (H1 & H2 & _). repeat split; auto. discriminate.
Qed.
Lemma cinv_stop E s : cinv E s -> cinv E (stop s).
Proof.
  intros C. rewrite stop_eq. apply (cinv_gen E s _ ((OStop :: cancel_all (map snd (s_res s))) ++ ends_log (ended s) (s_ch s)) C); auto.
  - rewrite forallb_app. cbn. now rewrite plain_cancel, plain_ends.
  - pj. intros h _. rewrite ends_ch_at. now destruct (is_in h (ended s)).
  - apply conns_same. reflexivity.
  - exact I.
Qed.
Lemma cinv_moved E s id c : cinv E s -> cinv E (moved E s id c).
Proof.
  intros C. apply (cinv_gen E s _ [] C); auto.
  - rewrite moved_log. symmetry. apply app_nil_r.
  - now rewrite moved_nh.
  - intros h _. now rewrite moved_ch.
  - apply conns_same, moved_conns.
  - apply (phase_plain E s _ [] (c_ph E s C)); auto.
    + rewrite moved_log. symmetry. apply app_nil_r.
    + now rewrite moved_res.
    + apply moved_phase.
Qed.
(** A request is forwarded. *)
Lemma cinv_forward E s id n o s' :
  cinv E s -> In n (takes (s_log s)) -> (forall a o', ~ In (OForward n a o') (s_log s)) ->
  (exists q, requested (s_log s) n q /\ formed E (s_log s) n q o) ->
  r_find kconnect (s_res s) = (if is_connect o then Some n else None) -> fwd s id n o s' -> cinv E s'.
Proof.
  intros C Ht Hnf (q & Hq & Hfo) Hr F. destruct F; [|now apply cinv_stop].
  destruct C as [C1 C2 C3 C4 C5 C6 C7 C8].
  assert (Hold : forall x, is_connect o = is_connect o -> match x with OForward _ _ _ => False | _ => True end ->
            (In x (s_log s ++ [OForward n (rc_addr c) o]) <-> In x (s_log s))).
  { intros x _ Hx. rewrite in_app_iff. cbn. split; [|auto]. intros [X|[X|[]]]; auto. subst x. destruct Hx. }
  assert (Hf : forall m a o', In (OForward m a o') (s_log s ++ [OForward n (rc_addr c) o]) <->
             In (OForward m a o') (s_log s) \/ (m = n /\ a = rc_addr c /\ o' = o)).
  { intros. rewrite in_app_iff. cbn. intuition congruence. }
  assert (Htk : takes (s_log s ++ [OForward n (rc_addr c) o]) = takes (s_log s)) by (rewrite takes_app; apply app_nil_r).
  constructor; pj; rewrite ?Htk.
  - intros h m o' X. apply Hold in X; auto. eauto.
  - intros m r X. apply Hold in X; auto. eauto.
  - intros m r r' X Y. apply Hold in X; auto. apply Hold in Y; auto. eauto.
  - intros m a o' X. apply Hf in X as [X|(-> & -> & ->)].
    + apply C4 in X as (X1 & p & X2 & X3). split; auto. exists p. split; [now apply requested_app|now apply formed_app].
    + split; auto. exists q. split; [now apply requested_app|now apply formed_app].
  - intros m a o1 b o2 X Y. apply Hf in X, Y. destruct X as [X|(-> & -> & ->)], Y as [Y|(Y1 & -> & ->)]; eauto.
    + subst m. now apply Hnf in X.
    + now apply Hnf in Y.
  - intros a k0 x. rewrite get_set. destruct (baddr_eqb (rc_addr c) a) eqn:X.
    + apply baddr_eqb_spec in X. subst a. intros Y. injection Y as <-. pj. intros Hx. apply in_app_iff in Hx as [Hx|[<-|[]]].
      * destruct (C6 _ _ _ H0 Hx) as [Z1 Z2]. split; auto. destruct (ci_src x); auto. apply Hf; auto.
      * split; [reflexivity|]. cbn. apply Hf; auto.
    + intros Y Hx. destruct (C6 _ _ _ Y Hx) as [Z1 Z2]. split; auto. destruct (ci_src x); auto. apply Hf; auto.
  - intros a k0 key m. rewrite get_set. destruct (baddr_eqb (rc_addr c) a) eqn:X.
    + apply baddr_eqb_spec in X. subst a. intros Y. injection Y as <-. pj. intros Hx.
      destruct (C7 _ _ _ _ H0 Hx) as (Z1 & c0 & Z2). split; auto. exists c0. apply Hf; auto.
    + intros Y Hx. destruct (C7 _ _ _ _ Y Hx) as (Z1 & c0 & Z2). split; auto. exists c0. apply Hf; auto.
  - unfold phase_ok. pj. destruct (is_connect o) eqn:IC; pj; auto.
    split; auto. split; [|discriminate]. destruct o; try discriminate. eexists. apply Hf; auto.
Qed.
(** A request is taken. *)
Lemma cinv_taken_gen E s h q n res dropped :
  cinv E s -> s_phase s = PRun -> phase_ok E (taken s h q n res dropped) -> cinv E (taken s h q n res dropped).
Proof.
  intros C Hp Hph. apply (cinv_gen E s _ (OTake n :: cancel_all dropped) C); auto.
  - pj. rewrite <- app_assoc. reflexivity.
  - pj. apply plain_cancel.
  - intros x _. pose proof (meta_up s h q x) as M. unfold meta in M. pj. cbn in M. congruence.
  - apply conns_same. reflexivity.
Qed.
Lemma r_find_del_other k k' r : k <> k' -> r_find k (r_del k' r) = r_find k r.
Proof.
  intros H. induction r as [|[k1 n] r IH]; cbn; auto. destruct (bytes_eqb k' k1) eqn:X; cbn.
  - apply bytes_eqb_spec in X. subst k1. destruct (bytes_eqb k k') eqn:Y; auto. apply bytes_eqb_spec in Y. congruence.
  - destruct (bytes_eqb k k1); auto.
Qed.
Lemma r_find_del_same k r : r_find k (r_del k r) = None.
Proof.
  destruct (r_find k (r_del k r)) eqn:X; auto. apply r_find_in, r_del_in in X as [_ X]. now cbn in X.
Qed.
Lemma r_find_cons_same k n r : r_find k ((k, n) :: r) = Some n.
Proof. cbn. now rewrite (proj2 (bytes_eqb_spec k k) eq_refl). Qed.
Lemma okey_connect o : okey o = Some kconnect -> is_connect o = true.
Proof. destruct o; cbn; auto; intros H; exfalso; revert H; vm_compute; discriminate. Qed.
Lemma ikey_connect i : ikey i = Some kconnect -> i = InConnected.
Proof. destruct i; cbn; auto; intros H; exfalso; revert H; vm_compute; discriminate. Qed.
Lemma put_other o n r res dropped :
  (if asks o then r_put (okey o) n r else (r, [])) = (res, dropped) -> is_connect o = false -> r_find kconnect res = r_find kconnect r.
Proof.
  intros H IC. apply put_cases in H as [(_ & -> & _)|(k & _ & Hk & -> & _)]; auto.
  assert (kconnect <> k) by (intros <-; apply okey_connect in Hk; congruence).
  cbn [r_find]. destruct (bytes_eqb kconnect k) eqn:X; [apply bytes_eqb_spec in X; congruence|]. now apply r_find_del_other.
Qed.
Lemma put_connect n r res dropped : r_put (Some (str "CONNECT")) n r = (res, dropped) -> r_find kconnect res = Some n.
Proof. intros H. unfold r_put in H. injection H as <- _. apply r_find_cons_same. Qed.
Lemma taken_log s h q n res dropped : s_log (taken s h q n res dropped) = s_log s ++ OTake n :: cancel_all dropped.
Proof. unfold taken. pj. rewrite <- app_assoc. reflexivity. Qed.
Lemma taken_takes s h q n res dropped : takes (s_log (taken s h q n res dropped)) = takes (s_log s) ++ [n].
Proof. rewrite taken_log, takes_app, takes_one, takes_cancel. reflexivity. Qed.
Lemma taken_old s h q n res dropped x : plain x = false -> (In x (s_log (taken s h q n res dropped)) <-> In x (s_log s)).
Proof.
  intros Hx. rewrite taken_log, in_app_iff. cbn. split; [|auto]. intros [X|[X|X]]; auto; [subst; discriminate|].
  apply cancel_all_cancel in X as [? ->]. discriminate.
Qed.
(** An event is delivered or answers a request. *)
Lemma cinv_sent E s a ser i s' :
  cinv E s -> s_phase s = PRun -> sent s a ser i s' -> cinv E s'.
Proof.
  intros C Hp S. pose proof (c_ph E s C) as P. unfold phase_ok in P. rewrite Hp in P. destruct S as [n r Hr|Hr].
  - apply (cinv_gen E s _ [OAnswer n ser i] C); auto; [apply conns_same; reflexivity|].
    unfold phase_ok. pj. rewrite Hp. unfold r_resolve in Hr. destruct (ikey i) as [k|]; [|discriminate].
    destruct (r_find k (s_res s)) eqn:F; [|discriminate]. injection Hr as <- <-.
    destruct (bytes_eqb kconnect k) eqn:X; [apply bytes_eqb_spec in X; subst k; apply r_find_del_same|].
    rewrite r_find_del_other; auto. intros Y; subst k. rewrite (proj2 (bytes_eqb_spec kconnect kconnect) eq_refl) in X. discriminate.
  - apply (cinv_gen E s _ [] C); auto.
    + symmetry. apply app_nil_r.
    + intros h _. pj. apply push_ch_meta.
    + apply conns_same. reflexivity.
    + unfold phase_ok. pj. now rewrite Hp.
Qed.
Lemma cinv_api_only E s s' :
  cinv E s -> s_log s' = s_log s -> (s_nh s <= s_nh s')%nat ->
  (forall h, (h < s_nh s)%nat -> ch_id (s_ch s' h) = ch_id (s_ch s h)) -> s_conns s' = s_conns s -> s_phase s' = s_phase s ->
  s_res s' = s_res s -> cinv E s'.
Proof.
  intros C El Hn Hi Hc Hp Hr. apply (cinv_gen E s s' [] C); auto.
  - rewrite El. symmetry. apply app_nil_r.
  - now apply conns_same.
  - apply (phase_plain E s s' [] (c_ph E s C)); auto; [rewrite El; symmetry; apply app_nil_r|congruence].
Qed.
Lemma cinv_say E s s' c :
  cinv E s -> s_log s' = s_log s ++ c -> forallb plain c = true -> (s_nh s <= s_nh s')%nat ->
  (forall h, (h < s_nh s)%nat -> ch_id (s_ch s' h) = ch_id (s_ch s h)) -> s_conns s' = s_conns s -> s_phase s' = s_phase s ->
  s_res s' = s_res s -> cinv E s'.
Proof.
  intros C El Hpl Hn Hi Hc Hp Hr. apply (cinv_gen E s s' c C); auto.
  - now apply conns_same.
  - apply (phase_plain E s s' c (c_ph E s C)); auto. congruence.
Qed.
Ltac ids_same := pj; let z := fresh "z" in intros z ?; unfold set_ch; match goal with |- context [(z =? ?y)%nat] => destruct (Nat.eqb_spec z y) end; [subst z|]; reflexivity.
Lemma conns_put s s' a k k0 :
  s_conns s' = set_conn a k (s_conns s) -> get_conn a (s_conns s) = Some k0 ->
  (forall x, In x (k_e2n k) -> In x (k_e2n k0) \/ x = mk_citem None OPong false) ->
  (forall p, In p (k_res k) -> In p (k_res k0) \/
        exists x n, In x (k_e2n k0) /\ ci_src x = Some n /\ is_connect (ci_out x) = true /\ p = (kconnect, n)) ->
  conns_from s s'.
Proof.
  intros H Hk H1 H2 b kb Hb. rewrite H, get_set in Hb. right. destruct (baddr_eqb a b) eqn:X.
  - apply baddr_eqb_spec in X. subst b. injection Hb as <-. exists k0. auto.
  - exists kb. auto.
Qed.
Lemma conns_new s s' a : s_conns s' = set_conn a conn_init (s_conns s) -> conns_from s s'.
Proof.
  intros H b k Hk. rewrite H, get_set in Hk. destruct (baddr_eqb a b); [injection Hk as <-; left; auto|].
  right. exists k. auto.
Qed.
Lemma put_item_res E s a k x q :
  cinv E s -> get_conn a (s_conns s) = Some k -> k_e2n k = x :: q ->
  forall p, In p (fst (put_item x (k_res k))) -> In p (k_res k) \/
        exists x n, In x (k_e2n k) /\ ci_src x = Some n /\ is_connect (ci_out x) = true /\ p = (kconnect, n).
Proof.
  intros C Hk Hq p. destruct (c_item E s C a k x Hk) as [W _]; [rewrite Hq; now left|].
  unfold put_item. destruct (ci_wait x) eqn:Wx; [|auto]. destruct (ci_src x) as [n|] eqn:Sx; [|auto].
  destruct (ci_out x) eqn:Ox; try discriminate. cbn. intros [<-|H].
  - right. exists x, n. rewrite Hq, Ox. split; [now left|]. auto.
  - apply r_del_in in H as [H _]. auto.
Qed.
(** The plugin answers. *)
Lemma cinv_auth E s s' n r :
  cinv E s -> In n (takes (s_log s)) -> (forall r, ~ In (OAuthed n r) (s_log s)) -> s_log s' = s_log s ++ [OAuthed n r] -> (s_nh s <= s_nh s')%nat ->
  (forall h, (h < s_nh s)%nat -> ch_id (s_ch s' h) = ch_id (s_ch s h)) -> conns_from s s' -> phase_ok E s' -> cinv E s'.
Proof.
  intros C Ht Hna El Hn Hid Hk Hp.
  assert (Hold : forall x, match x with OAuthed _ _ => False | _ => True end -> (In x (s_log s') <-> In x (s_log s))).
  { intros x Hx. rewrite El, in_app_iff. cbn. split; [|auto]. intros [X|[X|[]]]; auto. subst x. destruct Hx. }
  assert (Hau : forall m r', In (OAuthed m r') (s_log s') <-> In (OAuthed m r') (s_log s) \/ (m = n /\ r' = r)).
  { intros. rewrite El, in_app_iff. cbn. intuition congruence. }
  assert (Htk : takes (s_log s') = takes (s_log s)) by (rewrite El, takes_app; apply app_nil_r).
  assert (C0 : cinv E (mk_sys PStop (s_clients s') (s_res s') (s_conns s') (s_ch s') (s_regq s') (s_acks s') (s_mgr s') (s_waiting s') (s_nextid s')
                 (s_minted s') (s_nh s') (s_nreq s') (s_narr s') (s_log s))).
  { apply (cinv_gen E s _ [] C); auto; [symmetry; apply app_nil_r|exact I]. }
  destruct C0 as [C1 C2 C3 C4 C5 C6 C7 _]. cbn [s_log s_nh s_ch s_conns] in *.
  constructor; auto; rewrite ?Htk.
  - intros h m o X. apply Hold in X; auto. eauto.
  - intros m r' X. apply Hau in X as [X|[-> _]]; eauto.
  - intros m r1 r2 X Y. apply Hau in X, Y. destruct X as [X|[-> ->]], Y as [Y|[Y1 ->]]; eauto.
    + subst m. now apply Hna in X.
    + now apply Hna in Y.
  - intros m a o X. apply Hold in X; auto. apply C4 in X as (X1 & q & X2 & X3). split; auto. exists q. rewrite El.
    split; [now apply requested_app|now apply formed_app].
  - intros m a o b o' X Y. apply Hold in X; auto. apply Hold in Y; auto. eauto.
  - intros a k x X Y. destruct (C6 a k x X Y) as [Z1 Z2]. split; auto. destruct (ci_src x); auto. now apply Hold.
  - intros a k key m X Y. destruct (C7 a k key m X Y) as (Z1 & c & Z2). split; auto. exists c. now apply Hold.
Qed.
(** A connection ends. *)
Lemma cinv_dead E s a k : cinv E s -> get_conn a (s_conns s) = Some k -> cinv E (dead s a k).
Proof.
  intros C H. apply (cinv_gen E s _ [] C); auto.
  - symmetry. apply app_nil_r.
  - eapply (conns_put s _ a _ k); [reflexivity|exact H|pj|pj]; auto. tauto.
  - now apply (phase_lost E s _ (map snd (k_res k)) (c_ph E s C)).
Qed.
Ltac triv := auto; try reflexivity; try (intros; reflexivity); try (pj; lia); try (symmetry; apply app_nil_r).
Lemma cinv_trans E s e s' : hinv s -> rinv s -> cinv E s -> trans E s e s' -> cinv E s'.
Proof.
  intros Hh R C T. pose proof (c_ph E s C) as P.
  assert (Hfresh : forall h n o q, ch_up (s_ch s h) = (n, o) :: q ->
      In (OIssue h n o) (s_log s) /\ ~ In n (takes (s_log s)) /\ (forall a o', ~ In (OForward n a o') (s_log s)) /\ (forall r, ~ In (OAuthed n r) (s_log s))).
  { intros h n o q Hu. destruct (r_up s R h n o) as (X & Y & _); [rewrite Hu; now left|]. split; auto. split; auto. split.
    - intros a o' Z. apply (c_fw E s C) in Z. tauto.
    - intros r Z. apply (c_au E s C) in Z. tauto. }
  assert (Hl0 : forall l : list obs, l = l ++ []) by (intros; symmetry; apply app_nil_r).
  destruct T; lazymatch goal with |- cinv _ (stop (say _ [OAuthed _ _])) => idtac | |- cinv _ (stop _) => apply cinv_stop | _ => idtac end; try exact C.
  - apply (cinv_api_only E s); triv.
  - apply (cinv_api_only E s); [exact C|reflexivity|pj; lia| |reflexivity|reflexivity|reflexivity]. pj. intros h Hz. rewrite set_ch_other by lia. reflexivity.
  - apply (cinv_say E s _ [ORegErr (s_nh s)]); triv.
  - apply (cinv_say E s _ [OConfirm h]); triv. ids_same.
  - apply (cinv_say E s _ [ORegErr h]); triv. ids_same.
  - apply (cinv_api_only E s); triv. ids_same.
  - apply (cinv_api_only E s); triv.
  - apply (cinv_say E s _ (ends_log (regq_handles s) (s_ch s))); triv; [apply plain_ends|].
    pj. intros h _. rewrite ends_ch_at. now destruct (is_in h (regq_handles s)).
  - (* a request is issued *)
    set (n := s_nreq s).
    assert (Hi : forall x, match x with OIssue _ _ _ => False | _ => True end -> (In x (s_log s ++ [OIssue h n o]) <-> In x (s_log s))).
    { intros x Hx. rewrite in_app_iff. cbn. split; [|auto]. intros [X|[X|[]]]; auto. subst x. destruct Hx. }
    assert (Htk : takes (s_log s ++ [OIssue h n o]) = takes (s_log s)) by (rewrite takes_app; apply app_nil_r).
    pose proof C as [C1 C2 C3 C4 C5 C6 C7 C8]. constructor; pj; fold n; rewrite ?Htk.
    + intros x m p X. assert (Hs : ch_id (set_ch (s_ch s) h (ch_push_up (n, o) (s_ch s h)) x) = ch_id (s_ch s x)).
      { unfold set_ch. destruct (x =? h)%nat eqn:Y; auto. apply Nat.eqb_eq in Y. now subst x. }
      rewrite Hs. apply in_app_iff in X as [X|[X|[]]]; [eauto|]. injection X as <- <- <-. split; auto. now apply (h_live s Hh).
    + intros m r X. apply Hi in X; auto. eauto.
    + intros m r r' X Y. apply Hi in X; auto. apply Hi in Y; auto. eauto.
    + intros m a p X. apply Hi in X; auto. apply C4 in X as (X1 & q & X2 & X3). split; auto. exists q. split; [now apply requested_app|now apply formed_app].
    + intros m a p b p' X Y. apply Hi in X; auto. apply Hi in Y; auto. eauto.
    + intros a k x Hk Hx. destruct (C6 a k x Hk Hx) as [Y1 Y2]. split; auto. destruct (ci_src x); auto. now apply Hi.
    + intros a k key m Hk Hx. destruct (C7 a k key m Hk Hx) as (Y1 & c0 & Y2). split; auto. exists c0. now apply Hi.
    + unfold phase_ok in *. pj. fold n. destruct (s_phase s); auto; rewrite ?Htk.
      * destruct P as (P1 & P2 & P3 & P4 & P5 & q & P6 & P7). split; auto. split; auto. split; [|split; [|split; [auto|]]].
        -- intros a p X. apply Hi in X; auto. eapply P3; eauto.
        -- intros r X. apply Hi in X; auto. eapply P4; eauto.
        -- exists q. split; auto. now apply requested_app.
      * destruct P as (P1 & P2 & P3 & q & P6 & P7). split; auto. split; auto. split.
        -- intros a p X. apply Hi in X; auto. eapply P3; eauto.
        -- exists q. split; [now apply requested_app|now apply formed_app].
      * destruct P as (P1 & (c0 & P2) & P3). split; auto. split; auto. exists c0. now apply Hi.
  - apply (cinv_say E s _ [ORefuse h o]); triv.
  - apply (cinv_say E s _ [OGot h i]); triv. ids_same.
  - apply (cinv_say E s _ [OGone h]); triv.
  - apply (cinv_say E s _ (if ch_engine (s_ch s h) then [] else cancel_all (queued_requests (s_ch s h)))); triv; [|ids_same].
    destruct (ch_engine (s_ch s h)); [reflexivity|apply plain_cancel].
  - apply (cinv_gen E s _ [ODial (broker_address (e_cfg E)) true] C); triv.
    + now apply (conns_new s _ (broker_address (e_cfg E))).
    + unfold phase_ok in *. rewrite H in P. pj. exact P.
  - apply (cinv_say E s _ [ODial (broker_address (e_cfg E)) false]); triv.
  - (* take a plain command *)
    unfold phase_ok in P. rewrite H in P. destruct (Hfresh h n o q H2) as (F1 & F2 & F3 & F4).
    refine (cinv_forward E _ _ _ _ _ _ _ _ _ _ H5).
    + apply cinv_taken_gen; auto. unfold phase_ok. pj. rewrite H. now rewrite (put_other _ _ _ _ _ H3 H4).
    + rewrite taken_takes, in_app_iff. right. now left.
    + intros a o' X. apply taken_old in X; auto. eapply F3; eauto.
    + exists o. split; [exists h; apply taken_old; auto|]. destruct o; try reflexivity. discriminate.
    + rewrite H4. pj. now rewrite (put_other _ _ _ _ _ H3 H4).
  - (* take a connect: authentication *)
    destruct (Hfresh h n _ q H2) as (F1 & F2 & F3 & F4).
    apply (cinv_gen E s _ (OTake n :: cancel_all dropped) C); triv.
    + pj. rewrite <- app_assoc. reflexivity.
    + apply plain_cancel.
    + intros x _. pose proof (meta_up s h q x) as M. unfold meta in M. pj. cbn in M. congruence.
    + now apply conns_same.
    + unfold phase_ok. pj. change ((s_log s ++ [OTake n]) ++ cancel_all dropped) with (s_log (taken s h q n res dropped)).
      split; [eapply put_connect; eauto|]. split; [rewrite taken_takes, in_app_iff; right; now left|].
      split; [intros a o' X; apply taken_old in X; auto; eapply F3; eauto|].
      split; [intros r' X; apply taken_old in X; auto; eapply F4; eauto|].
      split; auto. exists r. split; auto. exists h. apply taken_old; auto.
  - (* take a connect: dial *)
    destruct (Hfresh h n _ q H2) as (F1 & F2 & F3 & F4).
    pose proof (c_api E s C h n _ F1) as (_ & Ha).
    assert (Hd : cn_auth_data r = None /\ cn_auth_method r = None).
    { clear -Ha. cbn in Ha. destruct (cn_auth_data r), (cn_auth_method r), (cn_addr r); try discriminate; auto. }
    apply (cinv_gen E s _ (OTake n :: cancel_all dropped) C); triv.
    + pj. rewrite <- app_assoc. reflexivity.
    + apply plain_cancel.
    + intros x _. pose proof (meta_up s h q x) as M. unfold meta in M. pj. cbn in M. congruence.
    + now apply conns_same.
    + unfold phase_ok. pj. change ((s_log s ++ [OTake n]) ++ cancel_all dropped) with (s_log (taken s h q n res dropped)).
      split; [eapply put_connect; eauto|]. split; [rewrite taken_takes, in_app_iff; right; now left|].
      split; [intros a o' X; apply taken_old in X; auto; eapply F3; eauto|].
      exists r. split; [exists h; apply taken_old; auto|]. exists None, None. split; [unfold filled; destruct Hd as [-> ->]; reflexivity|]. now rewrite H4.
  - (* take a connect: connection exists *)
    destruct (Hfresh h n _ q H2) as (F1 & F2 & F3 & F4).
    pose proof (c_api E s C h n _ F1) as (_ & Ha).
    assert (Hd : cn_auth_data r = None /\ cn_auth_method r = None).
    { clear -Ha. cbn in Ha. destruct (cn_auth_data r), (cn_auth_method r), (cn_addr r); try discriminate; auto. }
    assert (G : forall s1, s_log s1 = s_log (taken s h q n res dropped) -> exists p, requested (s_log s1) n p /\ formed E (s_log s1) n p (OConnect (filled E r))).
    { intros s1 ->. exists (OConnect r). split; [exists h; apply taken_old; auto|]. exists None, None. split; [unfold filled; destruct Hd as [-> ->]; reflexivity|]. now rewrite H4. }
    destruct H6 as [c1 k1 X1 X2 X3|c1 k1 X1 X2 X3].
    + (* the state before has an unanswered connect and is not itself well-formed: go directly *)
      set (s1 := moved E (taken s h q n res dropped) (rc_id c) (filled E r)) in *.
      assert (C1 : cinv E (with_phase s1 (PDial (rc_id c) n (filled E r)))).
      { apply (cinv_gen E s _ (OTake n :: cancel_all dropped) C); triv.
        - cbn [s_log with_phase]. unfold s1. rewrite moved_log. apply taken_log.
        - apply plain_cancel.
        - cbn [s_nh with_phase]. unfold s1. rewrite moved_nh. reflexivity.
        - intros x _. cbn [s_ch with_phase]. unfold s1. rewrite moved_ch. pose proof (meta_up s h q x) as M. unfold meta in M. pj. cbn in M. congruence.
        - apply conns_same. cbn [s_conns with_phase]. unfold s1. rewrite moved_conns. reflexivity.
        - unfold phase_ok. cbn [s_phase with_phase s_res s_log]. unfold s1. rewrite moved_res, moved_log.
          split; [eapply put_connect; eauto|]. split; [rewrite taken_takes, in_app_iff; right; now left|].
          split; [intros a o' X; apply taken_old in X; auto; eapply F3; eauto|].
          destruct (G (taken s h q n res dropped) eq_refl) as (p & Hp1 & Hp2). exists r. split; [exists h; apply taken_old; auto|].
          exists None, None. split; [unfold filled; destruct Hd as [-> ->]; reflexivity|]. now rewrite H4. }
      refine (cinv_forward E (with_phase s1 (PDial (rc_id c) n (filled E r))) (rc_id c) n (OConnect (filled E r)) _ C1 _ _ _ _ _).
      * cbn [s_log with_phase]. unfold s1. rewrite moved_log, taken_takes, in_app_iff. right. now left.
      * intros a o' X. cbn [s_log with_phase] in X. unfold s1 in X. rewrite moved_log in X. apply taken_old in X; auto. eapply F3; eauto.
      * apply G. cbn [s_log with_phase]. unfold s1. apply moved_log.
      * cbn [s_res with_phase is_connect]. unfold s1. rewrite moved_res. eapply put_connect; eauto.
      * exact (fwd_ok (with_phase s1 (PDial (rc_id c) n (filled E r))) (rc_id c) n (OConnect (filled E r)) c1 k1 X1 X2 X3).
    + set (s1 := moved E (taken s h q n res dropped) (rc_id c) (filled E r)) in *.
      assert (Hs : stop s1 = stop (with_phase s1 PStop)) by (rewrite !stop_eq; reflexivity).
      rewrite Hs. apply cinv_stop.
      apply (cinv_gen E s _ (OTake n :: cancel_all dropped) C); triv.
      * cbn [s_log with_phase]. unfold s1. rewrite moved_log. apply taken_log.
      * apply plain_cancel.
      * cbn [s_nh with_phase]. unfold s1. rewrite moved_nh. reflexivity.
      * intros x _. cbn [s_ch with_phase]. unfold s1. rewrite moved_ch. pose proof (meta_up s h q x) as M. unfold meta in M. pj. cbn in M. congruence.
      * apply conns_same. cbn [s_conns with_phase]. unfold s1. rewrite moved_conns. reflexivity.
  - (* authentication fails *)
    unfold phase_ok in P. rewrite H in P. destruct P as (P1 & P2 & P3 & P4 & P5 & q & P6 & P7).
    assert (Hs : forall x, stop x = stop (with_phase x PStop)) by (intros x; rewrite !stop_eq; reflexivity).
    rewrite Hs. apply cinv_stop. apply (cinv_auth E s _ n r C); triv; now apply conns_same.
  - unfold phase_ok in P. rewrite H in P. destruct P as (P1 & P2 & P3 & P4 & P5 & q & P6 & P7).
    apply (cinv_auth E s _ n (Ok d) C); triv; [now apply conns_same|].
    unfold phase_ok. pj. rewrite takes_app. split; auto. split; [apply in_app_iff; auto|].
    split; [intros a o X; apply in_app_iff in X as [X|[X|[]]]; [eapply P3; eauto|discriminate]|].
    exists q. split; [now apply requested_app|]. subst c. exists (Some d), (e_auth E). split; [reflexivity|].
    destruct (e_auth E); [|congruence]. split; auto. exists d. split; auto. apply in_app_iff. right. now left.
  - unfold phase_ok in P. rewrite H in P. destruct P as (P1 & P2 & P3 & P4 & P5 & q & P6 & P7).
    set (c' := mk_connect (Some d) (e_auth E) (cn_addr c)) in *.
    set (s1 := moved E (say s [OAuthed n (Ok d)]) id c') in *.
    assert (L1 : s_log s1 = s_log s ++ [OAuthed n (Ok d)]) by (unfold s1; rewrite moved_log; reflexivity).
    assert (C1 : cinv E (with_phase s1 (PDial id n c'))).
    { apply (cinv_auth E s _ n (Ok d) C); triv.
      - cbn [s_nh with_phase]. unfold s1. rewrite moved_nh. reflexivity.
      - intros x _. cbn [s_ch with_phase]. unfold s1. now rewrite moved_ch.
      - apply conns_same. cbn [s_conns with_phase]. unfold s1. rewrite moved_conns. reflexivity.
      - unfold phase_ok. cbn [s_phase with_phase s_res s_log]. rewrite L1. unfold s1. rewrite moved_res. rewrite takes_app.
        split; auto. split; [apply in_app_iff; auto|].
        split; [intros a o X; apply in_app_iff in X as [X|[X|[]]]; [eapply P3; eauto|discriminate]|].
        exists q. split; [now apply requested_app|]. exists (Some d), (e_auth E). split; [unfold c'; subst c; reflexivity|].
        destruct (e_auth E); [|congruence]. split; auto. exists d. split; auto. apply in_app_iff. right. now left. }
    pose proof (c_ph E _ C1) as P'. unfold phase_ok in P'. cbn [s_phase with_phase s_res s_log] in P'. destruct P' as (Q1 & Q2 & Q3 & q' & Q4 & Q5).
    refine (cinv_forward E (with_phase s1 (PDial id n c')) id n (OConnect c') _ C1 _ _ _ _ _); cbn [s_log with_phase s_res is_connect]; auto.
    + eauto.
    + destruct H1 as [x k X1 X2 X3|x k X1 X2 X3].
      * exact (fwd_ok (with_phase s1 (PDial id n c')) id n (OConnect c') x k X1 X2 X3).
      * assert (Hs : stop s1 = stop (with_phase s1 (PDial id n c'))) by (rewrite !stop_eq; reflexivity). rewrite Hs.
        exact (fwd_dead (with_phase s1 (PDial id n c')) id n (OConnect c') x k X1 X2 X3).
  - (* dialled *)
    set (s1 := moved E (put_conn (say s [ODial (caddr E c) true]) (caddr E c) conn_init) id c) in *.
    assert (L1 : s_log s1 = s_log s ++ [ODial (caddr E c) true]) by (unfold s1; rewrite moved_log; reflexivity).
    assert (C1 : cinv E s1).
    { apply cinv_moved. apply (cinv_gen E s _ [ODial (caddr E c) true] C); triv; [now apply (conns_new s _ (caddr E c))|].
      now apply (phase_plain E s _ [ODial (caddr E c) true] P). }
    pose proof (c_ph E _ C1) as P'. unfold phase_ok in P'.
    assert (Hp1 : s_phase s1 = PDial id n c) by (unfold s1; rewrite moved_phase; exact H). rewrite Hp1 in P'.
    destruct P' as (Q1 & Q2 & Q3 & q' & Q4 & Q5).
    refine (cinv_forward E s1 id n (OConnect c) _ C1 Q2 Q3 _ Q1 H0). eauto.
  - apply (cinv_say E s _ [ODial (caddr E c) false]); triv.
  - (* the answer to a connect *)
    unfold phase_ok in P. rewrite H in P. destruct P as (P1 & P2 & P3). specialize (P3 ser i eq_refl). subst i.
    destruct H0 as [m r Hr|Hr].
    + apply (cinv_gen E s _ [OHandle a ser InConnected; OAnswer m ser InConnected] C); triv; [pj; rewrite <- app_assoc; reflexivity|now apply conns_same|].
      unfold phase_ok. pj. unfold r_resolve in Hr. cbn [ikey] in Hr. fold kconnect in Hr. cbn [s_res with_phase say] in Hr.
      rewrite P1 in Hr. injection Hr as _ <-. apply r_find_del_same.
    + unfold r_resolve in Hr. cbn [ikey s_res with_phase say] in Hr. fold kconnect in Hr. rewrite P1 in Hr. discriminate.
  - (* pong *)
    apply (cinv_gen E s _ [OHandle a ser InPing; OPonged a] C); triv.
    + eapply (conns_put s _ a _ k); [reflexivity|exact H1|pj|pj].
      * intros x Hx. apply in_app_iff in Hx as [Hx|[<-|[]]]; auto.
      * auto.
    + now apply (phase_plain E s _ [OHandle a ser InPing; OPonged a] P).
  - apply (cinv_gen E s _ [OHandle a ser InPing] C); triv.
    + eapply (conns_put s _ a _ k); [reflexivity|exact H1|pj|pj]; auto.
    + now apply (phase_plain E s _ [OHandle a ser InPing] P).
  - refine (cinv_sent E _ _ _ _ _ _ _ H4); [|pj; exact H].
    apply (cinv_gen E s _ [OHandle a ser i] C); triv.
    + eapply (conns_put s _ a _ k); [reflexivity|exact H1|pj|pj]; auto.
    + now apply (phase_plain E s _ [OHandle a ser i] P).
  - apply (cinv_say E s _ [OReg h id]); triv.
  - apply (cinv_say E s _ [OReg h id]); triv.
  - (* a command is written *)
    set (w := OWrite a _ _ _).
    apply (cinv_gen E s _ [w] C); triv.
    + eapply (conns_put s _ a _ k); [reflexivity|exact H|pj|pj].
      * intros y Hy. left. rewrite H1. now right.
      * now apply (put_item_res E s a k x q).
    + apply (phase_plain E (popped s a k x q) _ [w]); auto. now apply (phase_lost E s _ (snd (put_item x (k_res k))) P).
  - apply (cinv_gen E s _ [] C); triv.
    + intros b kb Hb. cbn [s_conns dead with_phase put_conn with_conns popped] in Hb. rewrite get_set in Hb. destruct (baddr_eqb a b) eqn:X.
      * apply baddr_eqb_spec in X. subst b. injection Hb as <-. right. exists k. split; auto. pj. split; [|tauto].
        intros y Hy. left. rewrite H1. now right.
      * rewrite get_set, X in Hb. right. exists kb. auto.
    + unfold dead. apply (phase_lost E (popped s a k x q) _ (map snd (fst (put_item x (k_res k))))); auto.
      now apply (phase_lost E s _ (snd (put_item x (k_res k))) P).
  - apply (cinv_dead E s a k C H).
  - apply (cinv_dead E s a k C H).
  - apply (cinv_gen E s _ [] C); triv.
    + eapply (conns_put s _ a _ k); [reflexivity|exact H|pj|pj]; auto.
  - (* an answer to a connect arrives *)
    unfold r_resolve in H3. destruct (ikey i) as [key|] eqn:Ki; [|discriminate].
    destruct (r_find key (k_res k)) as [m|] eqn:Fk; [|discriminate]. injection H3 as -> <-.
    destruct (c_res E s C a k key n H (r_find_in _ _ _ Fk)) as (-> & c0 & Hc0).
    apply ikey_connect in Ki. subst i.
    apply (cinv_gen E s _ [OArrive a (s_narr s) InConnected] C); triv.
    + eapply (conns_put s _ a _ k); [reflexivity|exact H|pj|pj]; auto. intros p Hp. apply r_del_in in Hp as [Hp _]. auto.
    + destruct (wake_ph_cases [n] (Answered (s_narr s) InConnected) (s_phase s)) as [X|(b & m & X & _ & Y)].
      * apply (phase_plain E s _ [OArrive a (s_narr s) InConnected] P); auto.
      * unfold phase_ok in *. pj. rewrite Y. rewrite X in P. destruct P as (P1 & (c1 & P2) & _).
        split; auto. split; [exists c1; apply in_app_iff; auto|]. intros ser i Z. now injection Z.
  - apply (cinv_gen E s _ [OArrive a (s_narr s) i] C); triv.
    + eapply (conns_put s _ a _ k); [reflexivity|exact H|pj|pj]; auto.
    + now apply (phase_plain E s _ [OArrive a (s_narr s) i] P).
  - apply (cinv_dead E (say (with_counts s (s_nreq s) (S (s_narr s))) [OArrive a (s_narr s) i]) a k); auto.
    apply (cinv_say E s _ [OArrive a (s_narr s) i]); triv.
Qed.
Lemma cinv_init E : cinv E sys_init.
Proof. constructor; cbn; try tauto; try discriminate. Qed.
Lemma reach_cinv E h s : reach E h s -> hinv s /\ fresh s /\ rinv s /\ cinv E s /\ ainv s.
Proof.
  revert h s. apply (reach_inv E (fun s => hinv s /\ fresh s /\ rinv s /\ cinv E s /\ ainv s)).
  - destruct (reach_rinv E [] sys_init eq_refl) as (A & B & C). split; auto. split; auto. split; auto. split; [apply cinv_init|].
    constructor; cbn; try tauto; try discriminate; try constructor. all: try (intros; contradiction). all: try (intros ? []).
    all: try (intros; discriminate).
  - intros s e s' W (Hh & Hf & R & C & A) T. split; [eapply hinv_trans; eauto|]. split; [eapply fresh_trans; eauto|].
    split; [eapply rinv_trans; eauto|]. split; [eapply cinv_trans; eauto|]. refine (ainv_trans E s e s' _ A T).
    intros a n w Hp b k m key Hk Hin ->. pose proof (c_ph E s C) as P. unfold phase_ok in P. rewrite Hp in P.
    destruct P as (_ & (c & P) & _). destruct (c_res E s C b k key n Hk Hin) as (_ & c' & Q).
    apply (c_fw1 E s C n b _ a _ Q P).
Qed.
