(** C64: the only host and port a connection is ever opened to are the configured ones. *)
From Coq Require Import Strings.Byte.
From Verif Require Import Bytes Errors Wire Proto Address Message Dial SpecKeys Engine SpecEngine SpecEngine2 EngineFacts EngineLog EngineInv EngineView EngineOrigin EngineEx PropAddress PropEngine PropEngine2 PropEngine3.
Open Scope N_scope.

Lemma span_all p a x r : forallb p a = true -> p x = false -> span p (a ++ x :: r) = (a, x :: r).
Proof.
  intros H Hx. induction a as [|y a IH]; cbn in *; [now rewrite Hx|]. apply andb_true_iff in H as [-> H]. now rewrite (IH H).
Qed.
Lemma span_end p a : forallb p a = true -> span p a = (a, []).
Proof. induction a as [|y a IH]; cbn; [reflexivity|]. intros H. apply andb_true_iff in H as [-> H]. now rewrite (IH H). Qed.

(** A scheme: a letter, then scheme characters; not one of the special ones. *)
Definition scheme_ok (scheme : bytes) : Prop :=
  (exists c r, scheme = c :: r /\ is_alpha c = true) /\ forallb scheme_char scheme = true /\ special scheme = false.
Definition host_ok (host : bytes) : Prop := host <> [] /\ forallb host_char host = true.
Lemma digits_dec n : forallb is_digit (dec n) = true.
Proof.
  apply forallb_forall. intros x Hx. pose proof (dec_digits n) as H. rewrite Forall_forall in H. apply H in Hx.
  unfold is_digit, between. apply andb_true_iff. split; apply N.leb_le; lia.
Qed.
Lemma colon_not_host : host_char x3a = false. Proof. reflexivity. Qed.
Lemma colon_not_scheme : scheme_char x3a = false. Proof. reflexivity. Qed.
Lemma target_of other scheme host port : scheme_ok scheme -> host_ok host -> port < 65536 ->
  url_target other (scheme ++ str "://" ++ host ++ str ":" ++ dec port) = Ok (host, port).
Proof.
  intros ((c & r & -> & Hc) & Hs & Hsp) (Hn & Hh) Hp. unfold url_target, simple_url.
  change ((c :: r) ++ str "://" ++ host ++ str ":" ++ dec port) with ((c :: r) ++ x3a :: str "//" ++ host ++ str ":" ++ dec port).
  rewrite (span_all scheme_char (c :: r) x3a _ Hs colon_not_scheme). rewrite Hc.
  change (starts_with (str "://") (x3a :: str "//" ++ host ++ str ":" ++ dec port)) with true. cbv iota.
  change (skipn 3 (x3a :: str "//" ++ host ++ str ":" ++ dec port)) with (host ++ x3a :: dec port).
  rewrite (span_all host_char host x3a _ Hh colon_not_host). destruct host as [|y host]; [congruence|].
  rewrite digits_dec. change (b2n x3a =? 58) with true. cbn [andb]. cbv iota. rewrite Hsp.
  pose proof (dec_nonempty port) as Dn. rewrite undec_dec. destruct (dec port) as [|d l]; [congruence|].
  apply N.ltb_lt in Hp. now rewrite Hp.
Qed.
(** A configuration [scheme://host] and a port: the host and the port are dialled,
    with TLS exactly if the scheme is pulsar+ssl. *)
Theorem C64_configured_target : forall other c scheme host,
  endpoint_url c = scheme ++ str "://" ++ host -> scheme_ok scheme -> host_ok host -> endpoint_port c < 2 ^ 16 ->
  exists tls, connect_plan other (broker_address c) = Ok (mk_plan host (endpoint_port c) tls) /\ (tls = true <-> scheme = str "pulsar+ssl").
Proof.
  intros other c scheme host U Hs Hh Hp. exists (is_tls (broker_address c)). unfold connect_plan. change (2 ^ 16) with 65536 in Hp.
  assert (T : url_target other (base_url (broker_address c)) = Ok (host, endpoint_port c)).
  { unfold broker_address, base_url. rewrite U, <- !app_assoc. now apply target_of. }
  rewrite T. split; [reflexivity|]. rewrite C50_direct_tls, U. unfold begins, scheme_ssl. split.
  - intros [rest X]. destruct Hs as (_ & Hs & _).
    assert (A : span scheme_char (scheme ++ x3a :: str "//" ++ host) = span scheme_char (str "pulsar+ssl" ++ x3a :: str "//" ++ rest)) by (f_equal; exact X).
    rewrite (span_all _ _ _ _ Hs colon_not_scheme), (span_all scheme_char (str "pulsar+ssl") x3a _ eq_refl colon_not_scheme) in A. now injection A.
  - intros ->. exists host. reflexivity.
Qed.
Print Assumptions C64_configured_target.
(** A configured url without scheme, like localhost or 10.0.0.1, is never dialled. *)
Theorem C64_scheme_needed : forall other c, forallb scheme_char (endpoint_url c) = true -> special (endpoint_url c) = false ->
  connect_plan other (broker_address c) = Err InvalidUrl.
Proof.
  intros other c H Hsp. unfold connect_plan, broker_address, base_url. set (u := endpoint_url c) in *. set (d := dec (endpoint_port c)).
  change (str ":" ++ d) with (x3a :: d).
  assert (Sp : span scheme_char (u ++ x3a :: d) = (u, x3a :: d)) by (apply span_all; [exact H|reflexivity]).
  assert (Si : simple_url (u ++ x3a :: d) = None).
  { unfold simple_url. rewrite Sp. destruct (match u with c0 :: _ => is_alpha c0 | [] => false end); [|reflexivity].
    replace (starts_with (str "://") (x3a :: d)) with false; [reflexivity|]. symmetry. unfold d. pose proof (dec_digits (endpoint_port c)) as D.
    destruct (dec (endpoint_port c)) as [|y l]; [reflexivity|]. inversion D as [|? ? Dy _]; subst.
    change (starts_with (str "://") (x3a :: y :: l)) with (byte_eqb x2f y && starts_with (str "/") l). destruct (byte_eqb x2f y) eqn:B; [|reflexivity]. exfalso. apply byte_eqb_spec in B. subst y. vm_compute in Dy. destruct Dy as [Dy _]. now apply Dy. }
  unfold url_target. rewrite Si.
  assert (Sl : slashless (u ++ x3a :: d) = true).
  { unfold slashless. rewrite forallb_app. apply andb_true_iff. split.
    - rewrite forallb_forall in *. intros x Hx. now rewrite (H x Hx).
    - cbn [forallb]. change (scheme_char x3a || (b2n x3a =? 58)) with true. cbn [andb]. apply forallb_forall. intros x Hx.
      pose proof (digits_dec (endpoint_port c)) as D. rewrite forallb_forall in D. unfold scheme_char. rewrite (D x Hx), orb_true_r. reflexivity. }
  rewrite Sl. replace (special (scheme_of (u ++ x3a :: d))) with false; [reflexivity|]. symmetry. unfold scheme_of. rewrite Sp.
  destruct u as [|y u]; [reflexivity|]. destruct (is_alpha y); [exact Hsp|reflexivity].
Qed.
Print Assumptions C64_scheme_needed.

(** A text with a byte outside letters, digits, plus, minus, dot and colon, which is not
    of the form scheme://host or scheme://host:port, is left to the parser. *)
Lemma span_spec p l : let (a, b) := span p l in l = a ++ b /\ forallb p a = true.
Proof. induction l as [|x l IH]; cbn; [auto|]. destruct (p x) eqn:P; [|auto]. destruct (span p l) as [a b]. destruct IH as [-> IH]. cbn. now rewrite P. Qed.
Lemma starts_app u v : starts_with u v = true -> v = u ++ skipn (length u) v.
Proof. revert v. induction u as [|x u IH]; intros v H; [reflexivity|]. destruct v as [|y v]; [discriminate|]. cbn in H. apply andb_true_iff in H as [H1 H2]. apply byte_eqb_spec in H1 as ->. cbn. now rewrite <- (IH v H2). Qed.
Definition plain_url (u : bytes) : Prop := exists scheme host port, u = scheme ++ str "://" ++ host ++ port /\ scheme <> [] /\ host <> [] /\ forallb host_char host = true /\
  (port = [] \/ exists ds, port = str ":" ++ ds /\ forallb is_digit ds = true).
Theorem C64_left_to_the_parser : forall other u x, In x u -> ~ In x (str "ABCDEFGHIJKLMNOPQRSTUVWXYZabcdefghijklmnopqrstuvwxyz0123456789+-.:") -> ~ plain_url u -> url_target other u = other u.
Proof.
  intros other u x Hx Nx Np. unfold url_target. assert (Si : simple_url u = None).
  { unfold simple_url. pose proof (span_spec scheme_char u) as S. destruct (span scheme_char u) as [sc r]. destruct S as [-> _].
    destruct sc as [|c sc]; [reflexivity|]. destruct (is_alpha c); [|reflexivity]. destruct (starts_with (str "://") r) eqn:St; [|reflexivity]. apply starts_app in St. change (length (str "://")) with 3%nat in St.
    pose proof (span_spec host_char (skipn 3 r)) as S. destruct (span host_char (skipn 3 r)) as [host port]. destruct S as [Eh Hh]. rewrite Eh in St.
    destruct host as [|a host]; [reflexivity|]. destruct port as [|d ds].
    - elim Np. exists (c :: sc), (a :: host), []. rewrite St. repeat split; auto; discriminate.
    - destruct ((b2n d =? 58) && forallb is_digit ds) eqn:D; [|reflexivity]. apply andb_true_iff in D as [D1 D2]. assert (d = x3a) as -> by (clear - D1; destruct d; try discriminate D1; reflexivity).
      elim Np. exists (c :: sc), (a :: host), (x3a :: ds). rewrite St. repeat split; auto; try discriminate. right. exists ds. auto. }
  rewrite Si. replace (slashless u) with false; [reflexivity|]. symmetry. apply not_true_iff_false. intros F. unfold slashless in F. rewrite forallb_forall in F. specialize (F x Hx).
  apply Nx. clear - F. destruct x; first [discriminate F|vm_compute; tauto].
Qed.
Print Assumptions C64_left_to_the_parser.
Example C64_left_meets : In x2f (str "a/b:1") /\ ~ In x2f (str "ABCDEFGHIJKLMNOPQRSTUVWXYZabcdefghijklmnopqrstuvwxyz0123456789+-.:") /\ ~ plain_url (str "a/b:1").
Proof.
  split; [vm_compute; tauto|]. split; [vm_compute; intros X; repeat (destruct X as [X|X]; [discriminate X|]); exact X|].
  intros (sc & ho & po & E & _). do 6 (destruct sc as [|? sc]; [discriminate E|try discriminate E; injection E as _ E]).
Qed.

(** Every connection the engine opens, or tries to open, and everything it writes,
    goes to the configured host and port, with TLS or without as configured: a
    proxied broker is only named inside the protocol. *)
Lemma dial_base E h s a ok : reach E h s -> In (ODial a ok) (s_log s) -> base_url a = base_url (broker_address (e_cfg E)).
Proof.
  intros H Hi. apply in_split in Hi as (l1 & l2 & El). destruct (reach_origins E h s H _ _ _ El) as [[_ ->]|(n & q & _ & [c Hr] & ->)]; [reflexivity|].
  destruct (api_connect E h s n q H) as (_ & _ & [Ad|[p Ad]]); [exists c; rewrite El; apply in_app_iff; auto| |]; rewrite Ad; reflexivity.
Qed.
Lemma count_pos {A} (f : A -> bool) l x : In x l -> f x = true -> (0 < length (filter f l))%nat.
Proof. intros Hi Hf. assert (In x (filter f l)) as X by now apply filter_In. destruct (filter f l); [destruct X|cbn; lia]. Qed.
Lemma count_in {A} (f : A -> bool) l : (0 < length (filter f l))%nat -> exists x, In x l /\ f x = true.
Proof. intros H. destruct (filter f l) as [|x r] eqn:F; [cbn in H; lia|]. exists x. apply filter_In. rewrite F. now left. Qed.
Lemma write_dialled E h s a src o ok : reach E h s -> In (OWrite a src o ok) (s_log s) -> In (ODial a true) (s_log s).
Proof.
  intros H Hi. assert (X := Hi). apply in_split in X as (l1 & l2 & El). pose proof (reach_entries E h s H _ _ _ El) as X. destruct src as [n|]; cbn in X.
  - apply in_split in X as (m1 & m2 & ->). rewrite <- app_assoc in El. pose proof (proj2 (C45_connections_are_dialled E h s H) _ _ _ _ _ El) as D.
    rewrite El. apply in_app_iff. auto.
  - subst o. pose proof (C40_no_more_pongs E h s a H) as P.
    assert (P1 : (0 < pong_writes a (s_log s))%nat) by (eapply count_pos; [exact Hi|apply baddr_eqb_refl]).
    assert (P2 : (0 < pings a (s_log s))%nat) by lia. apply count_in in P2 as (x & Hx & Fx). destruct x as [| | | | | | | | |b ser i| | | | | | | | |]; try discriminate.
    destruct i; try discriminate. apply baddr_eqb_spec in Fx. subst b.
    apply in_split in Hx as (k1 & k2 & Ek). destruct (reach_entries E h s H _ _ _ Ek) as (_ & Ar & _).
    apply in_split in Ar as (j1 & j2 & ->). rewrite <- app_assoc in Ek. destruct (reach_entries E h s H _ _ _ Ek) as (D & _).
    rewrite Ek. apply in_app_iff. auto.
Qed.
Theorem C64_only_the_configured_target : forall other E h s a, reach E h s ->
  (exists ok, In (ODial a ok) (s_log s)) \/ (exists src o ok, In (OWrite a src o ok) (s_log s)) ->
  connect_plan other a = connect_plan other (broker_address (e_cfg E)).
Proof.
  intros other E h s a H Hi. assert (B : base_url a = base_url (broker_address (e_cfg E))).
  { destruct Hi as [[ok Hi]|(src & o & ok & Hi)]; [|apply (write_dialled E h s) in Hi; [|exact H]]; exact (dial_base E h s a _ H Hi). }
  unfold connect_plan, is_tls. now rewrite B.
Qed.
Print Assumptions C64_only_the_configured_target.
(** The documented configurations; one without scheme; one whose port is out of range. *)
Example C64_meets :
  (exists h p, connect_plan (fun _ => Panic) (broker_address (mk_config (str "pulsar://localhost") 6650)) = Ok (mk_plan h p false) /\ h = str "localhost" /\ p = 6650) /\
  connect_plan (fun _ => Panic) (broker_address (mk_config (str "pulsar+ssl://my-cluster.eu_1.example.com") 6651)) = Ok (mk_plan (str "my-cluster.eu_1.example.com") 6651 true) /\
  connect_plan (fun _ => Panic) (broker_address (mk_config (str "localhost") 6650)) = Err InvalidUrl /\
  connect_plan (fun _ => Panic) (broker_address (mk_config (str "127.0.0.1") 6650)) = Err InvalidUrl /\
  scheme_ok (str "pulsar+ssl") /\ host_ok (str "my-cluster.eu_1.example.com").
Proof.
  split; [eexists; eexists; split; [vm_compute; reflexivity|split; reflexivity]|]. repeat split; try (vm_compute; reflexivity); try discriminate.
  eexists; eexists; split; reflexivity.
Qed.
(** Two addresses dialled and written to in one run, one of them proxied. *)
Example C64_meets_run : exists s, reach xE x_proxied s /\ In (ODial x_pA true) (s_log s) /\ xA <> x_pA /\ x_pA <> broker_address (e_cfg xE) /\
  connect_plan (fun _ => Panic) x_pA = connect_plan (fun _ => Panic) (broker_address (e_cfg xE)) /\
  exists p, connect_plan (fun _ => Panic) x_pA = Ok p.
Proof.
  destruct (xwit x_proxied (fun l => In (ODial x_pA true) l)) as (s & R & I); [vm_compute; tauto|]. exists s. split; [exact R|]. split; [exact I|].
  split; [discriminate|]. split; [discriminate|]. split; [apply (C64_only_the_configured_target _ xE x_proxied s); eauto|]. eexists. vm_compute. reflexivity.
Qed.
