(** C50 (TLS selection) and C51 (errors). *)
From Verif Require Import Bytes Errors Address.
Open Scope N_scope.

Definition scheme_ssl : bytes := str "pulsar+ssl://".
(** [b] begins with [p]. *)
Definition begins (p b : bytes) : Prop := exists rest, b = p ++ rest.

Lemma prefix_port_char u d r : Forall (fun x => 48 <= b2n x < 58) (d :: r) ->
  begins scheme_ssl (u ++ str ":" ++ d :: r) -> begins scheme_ssl u.
Proof.
  intros HD [rest H].
  assert (HL : (length u >= 13 \/ length u < 13)%nat) by lia. destruct HL as [HL|HL].
  - exists (skipn 13 u).
    assert (E : firstn 13 (u ++ str ":" ++ d :: r) = firstn 13 (scheme_ssl ++ rest)) by now rewrite H.
    rewrite firstn_app in E. replace (13 - length u)%nat with 0%nat in E by lia.
    rewrite firstn_O, app_nil_r in E. change (firstn 13 (scheme_ssl ++ rest)) with scheme_ssl in E.
    rewrite <- E. symmetry. apply firstn_skipn.
  - exfalso.
    assert (E : forall k, nth_error (u ++ str ":" ++ d :: r) k = nth_error (scheme_ssl ++ rest) k)
      by (intros k; now rewrite H).
    assert (E0 := E (length u)). rewrite nth_error_app2 in E0 by lia. rewrite Nat.sub_diag in E0.
    rewrite (nth_error_app1 scheme_ssl) in E0 by (change (length scheme_ssl) with 13%nat; lia).
    assert (E1 := E (S (length u))). rewrite nth_error_app2 in E1 by lia.
    replace (S (length u) - length u)%nat with 1%nat in E1 by lia.
    assert (HU : length u = 10%nat).
    { do 13 (destruct u as [|? u]; [vm_compute in E0; first [discriminate|reflexivity]|]). cbn in HL. lia. }
    rewrite HU in E1. inversion HD as [|? ? Hd _]; subst.
    vm_compute in E1. injection E1 as ->. cbn in Hd. lia.
Qed.

Lemma begins_app p b s : begins p b -> begins p (b ++ s).
Proof. intros [r ->]. exists (r ++ s). now rewrite app_assoc. Qed.

Lemma dec_nonempty n : dec n <> [].
Proof.
  unfold dec. cbn [dec_go]. destruct (n <? 10); [discriminate|].
  intros H. symmetry in H. now apply app_cons_not_nil in H.
Qed.

(** C50: the address made from the configuration uses TLS exactly when the
    configured url has the TLS scheme, whatever the port. *)
Theorem C50_direct_tls c : is_tls (broker_address c) = true <-> begins scheme_ssl (endpoint_url c).
Proof.
  unfold is_tls, broker_address, base_url. rewrite starts_with_spec. fold scheme_ssl. split.
  - intros H. pose proof (dec_digits (endpoint_port c)) as HD. pose proof (dec_nonempty (endpoint_port c)) as HN.
    destruct (dec (endpoint_port c)) as [|d r]; [contradiction|]. eapply prefix_port_char; eauto.
  - apply begins_app.
Qed.

(** C50: [PulsarConfig::is_tls] says the same. *)
Theorem C50_config_agrees c : config_is_tls c = is_tls (broker_address c).
Proof.
  destruct (is_tls (broker_address c)) eqn:E.
  - apply C50_direct_tls in E. unfold config_is_tls. apply starts_with_spec. exact E.
  - destruct (config_is_tls c) eqn:E2; [|reflexivity].
    unfold config_is_tls in E2. apply starts_with_spec in E2. apply C50_direct_tls in E2. congruence.
Qed.

(** C50: a connection to a broker behind the proxy uses TLS exactly when the
    configured url does, whatever url the broker named. *)
Theorem C50_proxied_tls c target :
  is_tls (fill_address c (Some (Proxy [] target))) = true <-> begins scheme_ssl (endpoint_url c).
Proof. rewrite <- C50_direct_tls. reflexivity. Qed.

Example C50_ex_tls : is_tls (broker_address (mk_config (str "pulsar+ssl://h") 6651)) = true. Proof. reflexivity. Qed.
Example C50_ex_plain : is_tls (broker_address (mk_config (str "pulsar+ssl") 6650)) = false. Proof. reflexivity. Qed.
(** The target's scheme plays no role. *)
Example C50_ex_target : is_tls (fill_address (mk_config (str "pulsar://h") 6650) (Some (Proxy [] (str "pulsar+ssl://b:1")))) = false.
Proof. reflexivity. Qed.

(** C51: exactly two error kinds count as disconnects. *)
Theorem C51_disconnect_kinds e : is_disconnect e = true <-> e = Disconnected \/ e = ChannelTerminated.
Proof. destruct e; cbn; split; intros H; try discriminate; auto; destruct H; discriminate. Qed.
(** C51: the text identifies the error, including its message. *)
Theorem C51_render_injective e e' : render e = render e' -> e = e'.
Proof. apply render_inj. Qed.
Example C51_ex : render (AuthenticationFailed (str "x")) <> render (PulsarError (str "x")).
Proof. intros H. apply C51_render_injective in H. discriminate. Qed.

Print Assumptions C50_direct_tls.
Print Assumptions C50_config_agrees.
Print Assumptions C50_proxied_tls.
Print Assumptions C51_disconnect_kinds.
Print Assumptions C51_render_injective.
