(* Asking a remote to leave, the end, what the inbound survives, and the lookups of a connection that is closed. *)
From Coq Require Import ZArith List Bool Lia.
From Verif Require Import GwiModel GwiSpec GwiProofs GwiInv GwiFwd GwiOnce GwiKeep GwiPass GwiReply GwiThere GwiCache GwiClose GwiLeave.
Import ListNotations.
Local Open Scope Z_scope.

Lemma lost_some s n : NoDup (map c_sock (s_conns s)) -> In n (s_conns s) -> exists s' ev, lost (c_sock n) s = Done s' (Destroyed (c_ipc n) :: ev).
Proof. intros N I. unfold lost. rewrite (by_sock_in s n N I). cbn. eauto. Qed.
Lemma disconnect_one ok s s' ev n : NoDup (map c_sock (s_conns s)) -> In n (s_conns s) -> disconnect ok (c_sock n) s = Done s' ev -> if c_soft n && ok then s' = s /\ ev = [ToRemote (c_ipc n) WLeave] else In (Destroyed (c_ipc n)) ev.
Proof.
  intros N I. unfold disconnect, send. rewrite (by_sock_in s n N I). destruct (c_soft n), ok; cbn [andb]; intro E.
  - injection E as <- <-. auto.
  - apply bind_done in E as (s1 & e1 & e2 & A & _ & ->). destruct (lost_some s n N I) as (s2 & e3 & B). rewrite B in A. injection A as _ <-. cbn; auto.
  - destruct (lost_some s n N I) as (s2 & e3 & B). rewrite B in E. injection E as _ <-. cbn; auto.
  - destruct (lost_some s n N I) as (s2 & e3 & B). rewrite B in E. injection E as _ <-. cbn; auto.
Qed.
Lemma remove_asks h c ok ev : happens (h ++ [(Remove c ok, ev)]) -> (soft c h -> ok = true -> ev = [ToRemote c WLeave]) /\ (~ soft c h \/ ok = false -> In (Destroyed c) ev).
Proof.
  intro H. apply happens_snoc in H as (s & s' & R & P & E & R'). pose proof (reach_inv s h R) as IV. cbn in P, E. destruct (by_ipc_in _ _ P) as [n BI]. rewrite BI in E. apply by_ipc_some in BI as [I CN]. pose proof (disconnect_one ok s s' ev n (i_sock _ _ IV) I E) as X. pose proof (soft_of s h n R I) as SO. rewrite CN in *.
  split.
  - intros A ->. apply SO in A. rewrite A in X. cbn in X. apply X.
  - intros A. destruct (c_soft n) eqn:SF; cbn in X; auto. destruct ok; auto. destruct A as [A|A]; [now apply proj1 in SO; destruct A; apply SO|discriminate].
Qed.
Lemma disconnect_all_each broken l s s' ev : NoDup (map c_sock (s_conns s)) -> NoDup (map c_sock l) -> (forall m, In m l -> In m (s_conns s)) -> disconnect_all broken l s = Done s' ev ->
  forall n, In n l -> if c_soft n && negb (existsb (Z.eqb (c_ipc n)) broken) then In (ToRemote (c_ipc n) WLeave) ev else In (Destroyed (c_ipc n)) ev.
Proof.
  revert s ev. induction l as [|a l IH]; cbn; intros s ev N NL IN H n I; [destruct I|]. apply bind_done in H as (s1 & e1 & e2 & D & R & ->). pose proof (disconnect_one _ _ _ _ a N (IN a (or_introl eq_refl)) D) as X. inversion NL as [|? ? NL1 NL2]; subst. destruct I as [-> | I].
  - destruct (c_soft n && negb (existsb (Z.eqb (c_ipc n)) broken)); apply in_or_app; left; [destruct X as [_ ->]; cbn; auto|auto].
  - destruct (disconnect_closing _ _ _ _ _ D) as [(L & C & I1 & _) _].
    assert (Y: if c_soft n && negb (existsb (Z.eqb (c_ipc n)) broken) then In (ToRemote (c_ipc n) WLeave) e2 else In (Destroyed (c_ipc n)) e2).
    { apply (IH s1 e2); auto.
      - rewrite (cl_conns _ _ _ _ C). now apply NoDup_filter.
      - intros m M. rewrite (cl_conns _ _ _ _ C). apply filter_In. split; [now apply IN; right|]. apply negb_true_iff. destruct (hit L (c_sock m)) eqn:HT; auto. exfalso. apply hit_in in HT as [x [X1 X2]]. specialize (I1 _ (in_map c_sock _ _ X1)). destruct I1 as [I1|[]]. apply NL1. rewrite I1, X2. now apply in_map. }
    destruct (c_soft n && negb (existsb (Z.eqb (c_ipc n)) broken)); apply in_or_app; auto.
Qed.
Lemma shutdown_asks h broken ev c : happens (h ++ [(Shutdown broken, ev)]) -> open c h -> (soft c h -> ~ In c broken -> In (ToRemote c WLeave) ev) /\ (~ soft c h \/ In c broken -> In (Destroyed c) ev).
Proof.
  intros H OP. apply happens_snoc in H as (s & s' & R & P & E & R'). pose proof (reach_inv s h R) as IV. destruct (open_conn s h c R OP) as [n [I CN]]. cbn in E. unfold shutdown in E. pose proof (disconnect_all_each broken (s_conns s) (State (s_conns s) (s_tasks s) (s_cache s) (s_leaving s) true) s' ev (i_sock _ _ IV) (i_sock _ _ IV) (fun m M => M) E n I) as X. pose proof (soft_of s h n R I) as SO. rewrite CN in *.
  split.
  - intros A B. apply SO in A. rewrite A in X. cbn in X. destruct (existsb (Z.eqb c) broken) eqn:EB; [now apply existsb_eq in EB|auto].
  - intros A. destruct (c_soft n) eqn:SF; cbn in X; auto. destruct A as [A|A]; [destruct A; now apply SO|]. rewrite (in_existsb _ _ A) in X. auto.
Qed.
Lemma reach_down s h : reach s h -> (s_down s = true <-> exists b, In (Shutdown b) (inputs h)).
Proof.
  induction 1 as [|s h i s' ev R IH P E]; [cbn; split; [discriminate|intros [b []]]|]. destruct (stepd_of _ _ _ _ _ R P E) as [IV SD]. rewrite inputs_snoc.
  assert (SAME: s_down s' = s_down s -> (forall b, i <> Shutdown b) -> s_down s' = true <-> exists b, In (Shutdown b) (inputs h ++ [i])).
  { intros -> N. rewrite IH. split; intros [b X]; exists b; [apply in_or_app; auto|]. apply in_app_or in X as [X|[X|[]]]; auto. now apply N in X. }
  assert (DA: forall t f, s_down (cache_add t f s) = s_down s) by (intros; unfold cache_add; now destruct (cached _ _)).
  destruct SD as [f1 c1 soft|n1 on1 q s' ev J E1|n1 on1 r k t1 d s' ev J E1|i Q|n1 on1 k d f1 q o name p J F K|n1 on1 k f1 q o name p J F K|n1 on1 k d J|n1 on1 J DC|n1 ok k a f1 q o fnd J F A|n1 ok k name p f1 q o fnd ev J F EV
    |n1 ok k p f1 q fnd J F|n1 ok k p f1 q fnd J F|n1 ok k t1 f1 q o fnd ev J F EV|n1 ok k t1 f1 q w J F|n1 ok k t1 f1 q w p J F|n1 k code d m q o fnd J J2 F K|n1 r k t1 code m k0 o J J2 F|n1 m w J F X|n1 k d J
    |f1 q|g0|i L s' ev CL C D|c1 k d L s1 ev CL C D]; try (apply SAME; [reflexivity || apply DA|discriminate]).
  - apply SAME; [|discriminate]. destruct (request_done _ _ _ _ _ _ (i_sock _ _ IV) J E1) as (q' & w & l & e & T & -> & ->). reflexivity.
  - apply SAME; [|discriminate]. unfold resource_step in E1. destruct (cached _ _); injection E1 as <- <-; reflexivity.
  - apply SAME; auto. intros b ->. destruct Q.
  - destruct i as [| | | | | | |b|]; try (apply SAME; [exact D|discriminate]). rewrite D. split; auto. intros _. exists b. apply in_or_app; cbn; auto.
  - apply SAME; [exact D|discriminate].
Qed.
Lemma done_when s h : reach s h -> (done s = true <-> (exists b, In (Shutdown b) (inputs h)) /\ forall c, connected c h -> gone c h).
Proof.
  intro R. pose proof (reach_inv s h R) as IV. unfold done. rewrite andb_true_iff, (reach_down s h R). apply and_iff_compat_l. split.
  - intros X c CO. destruct (s_conns s) as [|n l] eqn:EC; [|discriminate]. destruct (existsb (fun e => match e with Destroyed c' => c' =? c | _ => false end) (effects h)) eqn:ED.
    + apply existsb_exists in ED as [e [A B]]. destruct e; try discriminate. apply Z.eqb_eq in B. now subst.
    + exfalso. assert (O: open c h). { split; auto. intro G. apply Bool.not_true_iff_false in ED. apply ED. apply existsb_exists. exists (Destroyed c). split; auto. apply Z.eqb_refl. } apply IV in O. rewrite EC in O. destruct O.
  - intro X. destruct (s_conns s) as [|n l] eqn:EC; auto. exfalso. assert (O: open (c_ipc n) h) by (apply IV; rewrite EC; cbn; auto). destruct O as [A B]. now apply B, X.
Qed.

(* ---- what it survives ---- *)
Lemma reach_nodup s h : reach s h -> leaves_once h -> NoDup (s_leaving s).
Proof.
  induction 1 as [|s h i s' ev R IH P E]; intro LO; [constructor|]. destruct (stepd_of _ _ _ _ _ R P E) as [IV SD].
  assert (LO0: leaves_once h) by (intro c; specialize (LO c); rewrite inputs_snoc, count_app in LO; lia). specialize (IH LO0).
  assert (CLC: forall L s1 ev1, closing L s s1 ev1 -> NoDup (s_leaving s1)) by (intros L s1 ev1 C; rewrite (cl_leaving _ _ _ _ C); pose proof (NoDup_filter (fun x : sock => x) (fun f => negb (hit L f)) (s_leaving s)) as X; rewrite !map_id in X; auto).
  destruct SD as [f1 c1 soft|n1 on1 q s' ev J E1|n1 on1 r k t1 d s' ev J E1|i Q|n1 on1 k d f1 q o name p J F K|n1 on1 k f1 q o name p J F K|n1 on1 k d J|n1 on1 J DC|n1 ok k a f1 q o fnd J F A|n1 ok k name p f1 q o fnd ev J F EV
    |n1 ok k p f1 q fnd J F|n1 ok k p f1 q fnd J F|n1 ok k t1 f1 q o fnd ev J F EV|n1 ok k t1 f1 q w J F|n1 ok k t1 f1 q w p J F|n1 k code d m q o fnd J J2 F K|n1 r k t1 code m k0 o J J2 F|n1 m w J F X|n1 k d J
    |f1 q|g0|i L s' ev CL C D|c1 k d L s1 ev CL C D]; cbn; rewrite ?cache_add_leaving; auto.
  - destruct (request_done _ _ _ _ _ _ (i_sock _ _ IV) J E1) as (q' & w & l & e & T & -> & ->). exact IH.
  - unfold resource_step in E1. destruct (cached _ _); injection E1 as <- <-; exact IH.
  - apply (NoDup_Add (a := c_sock n1) (l := s_leaving s)); [|split; auto]; [rewrite <- (app_nil_r (s_leaving s)) at 1; apply Add_app|]. intro X. apply (i_leaving _ _ IV) in X as (c & SO & [o LV]). assert (c = c_ipc n1) by (apply (sock_of_unique s _ _ (c_sock n1)); auto; [apply IV|exists n1; auto]). subst c.
    specialize (LO (c_ipc n1)). rewrite inputs_snoc, count_app in LO. cbn in LO. rewrite Z.eqb_refl in LO. pose proof (count_in (is_leave (c_ipc n1)) _ _ LV (Z.eqb_refl _)). lia.
  - apply (CLC L s' ev C).
  - apply (CLC L s1 ev C).
Qed.
Lemma lost_all_done l s : NoDup (map c_sock (s_conns s)) -> NoDup l -> (forall f, In f l -> exists n, In n (s_conns s) /\ c_sock n = f) -> exists s' ev, lost_all l s = Done s' ev.
Proof.
  revert s. induction l as [|f l IH]; cbn; intros s N NL H; [eauto|]. destruct (H f (or_introl eq_refl)) as (n & I & <-). destruct (lost_some s n N I) as (s1 & e1 & L1). inversion NL as [|? ? NL1 NL2]; subst.
  destruct (lost_closing n s s1 _ (by_sock_in s n N I) L1) as [C _]. rewrite L1. cbn. destruct (IH s1) as (s2 & e2 & L2).
  - rewrite (cl_conns _ _ _ _ C). now apply NoDup_filter.
  - auto.
  - intros f0 F0. destruct (H f0 (or_intror F0)) as (m & M1 & M2). exists m. split; auto. rewrite (cl_conns _ _ _ _ C). apply filter_In. split; auto. rewrite hit_one. apply negb_true_iff. apply Z.eqb_neq. intro X. apply NL1. rewrite X, M2. auto.
  - rewrite L2. eauto.
Qed.
Lemma send_some ok f m s n : NoDup (map c_sock (s_conns s)) -> In n (s_conns s) -> c_sock n = f -> exists s' ev, send ok f m s = Done s' ev.
Proof. intros N I <-. unfold send. rewrite (by_sock_in s n N I). destruct ok; [eauto|]. destruct (lost_some s n N I) as (s1 & e1 & L1). rewrite L1. cbn. eauto. Qed.
Lemma disconnect_done ok f s : NoDup (map c_sock (s_conns s)) -> exists s' ev, disconnect ok f s = Done s' ev.
Proof.
  intro N. unfold disconnect. destruct (by_sock f s) as [n|] eqn:B; [|eauto]. apply by_sock_some in B as [I F]. destruct (c_soft n); [now apply (send_some ok f WLeave s n)|]. subst f. destruct (lost_some s n N I) as (s1 & e1 & L1). eauto.
Qed.
Lemma disconnect_all_done broken l s : NoDup (map c_sock (s_conns s)) -> exists s' ev, disconnect_all broken l s = Done s' ev.
Proof.
  revert s. induction l as [|n l IH]; cbn; intros s N; [eauto|]. destruct (disconnect_done (negb (existsb (Z.eqb (c_ipc n)) broken)) (c_sock n) s N) as (s1 & e1 & D). rewrite D. cbn. destruct (disconnect_closing _ _ _ _ _ D) as [(L & C & _) _].
  destruct (IH s1) as (s2 & e2 & X); [rewrite (cl_conns _ _ _ _ C); now apply NoDup_filter|]. rewrite X. eauto.
Qed.
Lemma survives s h i : reach s h -> possible i s h -> unique h -> honest h -> leaves_once h -> sends_right h i -> reply_fails i = false -> exists s' ev, step i s = Done s' ev.
Proof.
  intros R P U HO LO SR RF. pose proof (reach_inv s h R) as IV. pose proof (i_sock _ _ IV) as ND.
  assert (RD: forall k t m, first_task k s = Some t -> exists s' ev, reply_and_drop true k (k_sock t) m s = Done s' ev).
  { intros k t m F. destruct (known_now _ _ _ _ IV F) as (c & (n & N1 & N2 & _) & _). unfold reply_and_drop, send. rewrite <- N2, (by_sock_in s n ND N1). eauto. }
  assert (CONV: forall k t q o, first_task k s = Some t -> k_body t = Service q o None -> found k h -> False).
  { intros k t q o F KB FO. apply first_some in F as [F1 F2]. pose proof (reach_unanswered s h R U HO t F1) as X. unfold t_corr in F2. rewrite KB in *. cbn in X. rewrite F2 in X. now apply X. }
  destruct i as [f c sf|c on m|c ok m|f q|c|g|c ok|broken|]; cbn [step] in *; try eauto.
  - cbn in P. destruct (by_ipc_in _ _ P) as [n BI]. rewrite BI. apply by_ipc_some in BI as [I CN]. destruct m as [q|k d|k|r k t d|k d|]; cbn in *.
    + unfold request_step. destruct (in_transaction (c_sock n) q s) as [[[q' w] s1] e]. destruct (q_kind q); eauto.
    + destruct (first_task k s) as [[f [q o [x|]|q w fnd|r k0 o]]|] eqn:F; eauto; destruct (q_kind q); eauto. exfalso. apply (CONV k _ q o F eq_refl SR).
    + destruct (first_task k s) as [[f [q o [x|]|q w fnd|r k0 o]]|] eqn:F; eauto; destruct (q_kind q); eauto. exfalso. apply (CONV k _ q o F eq_refl SR).
    + unfold resource_step. destruct (cached _ _); eauto.
    + eauto.
    + destruct (disconnectable (c_sock n) s); eauto. destruct (lost_some s n ND I) as (s1 & e1 & L1). eauto.
  - cbn in P. destruct (by_ipc_in _ _ P) as [n BI]. rewrite BI. apply by_ipc_some in BI as [I CN]. assert (SE: forall w, exists s' ev, send ok (c_sock n) w s = Done s' ev) by (intro w; now apply (send_some ok (c_sock n) w s n)). destruct m as [k a|k x|k t|nk k code d|k term d|r k t code|k d|d]; cbn [internal_step].
    + unfold lookup_reply. destruct (first_task k s) as [[f [q o fnd|q w fnd|r k0 o]]|]; eauto. destruct a; eauto.
    + unfold queue_lookup_reply. destruct (first_task k s) as [[f [q o fnd|q [] fnd|r k0 o]]|]; eauto.
    + unfold branch_reply. destruct (first_task k s) as [[f [q o fnd|q w [y|]|r k0 o]]|]; eauto.
    + destruct nk; auto. destruct ok; [|discriminate RF]. unfold call_reply. destruct (first_task k s) as [[f [q o fnd|q w fnd|r k0 o]]|] eqn:F; eauto. destruct (q_kind q); eauto. apply (RD k _ _ F).
    + destruct (SE (WSend k term d)) as (s1 & e1 & X). rewrite X. cbn. destruct term; eauto.
    + destruct ok; [|discriminate RF]. unfold resource_reply. destruct (first_task k s) as [[f [q o fnd|q w fnd|r' k0 o]]|] eqn:F; eauto. destruct (resource_eqb r r'); eauto. apply (RD k _ _ F).
    + auto.
    + auto.
  - cbn in P. destruct (by_ipc_in _ _ P) as [n BI]. rewrite BI. apply by_ipc_some in BI as [I CN]. destruct (lost_some s n ND I) as (s1 & e1 & L1). rewrite L1. cbn. eauto.
  - cbn in P. destruct (by_ipc_in _ _ P) as [n BI]. rewrite BI. now apply disconnect_done.
  - now apply disconnect_all_done.
  - unfold idle. apply lost_all_done; cbn; auto.
    + pose proof (NoDup_filter (fun x : sock => x) (fun f => disconnectable f s) (s_leaving s)) as X. rewrite !map_id in X. apply X. apply (reach_nodup s h R LO).
    + intros f F. apply filter_In in F as [F _]. apply (i_leaving _ _ IV) in F as (c & (n & A & B & _) & _). eauto.
Qed.

(* ---- the lookups ---- *)
Lemma lookup_discarded h i ev c q : happens (h ++ [(i, ev)]) -> unique h -> In (Destroyed c) ev -> asked c q h -> is_service q = true -> ~ ended q h -> ~ found (q_corr q) h -> In (Discard (q_corr q) (q_name q)) ev.
Proof.
  intros H U J A SV EN NF. apply happens_snoc in H as (s & s' & R & P & E & R'). destruct (stepd_of _ _ _ _ _ R P E) as [IV SD]. destruct (step_closes _ _ _ _ _ (i_sock _ _ IV) SD J) as (L & s1 & CL & C & n & NL & CN). pose proof (cl_in _ _ _ _ C n NL) as I.
  destruct (reach_there s h R U c q n A SV EN I CN) as (q1 & fnd & T & (_ & QC & _) & QN). assert (HL: hit L (c_sock n) = true) by (apply hit_in; eauto). pose proof (cl_discard _ _ _ _ C _ T HL) as X. destruct fnd as [[name p]|].
  - exfalso. apply NF. destruct (i_task _ _ IV _ T) as (c1 & _ & (q0 & _ & _ & _ & _ & _ & _ & G)). exists name, p. rewrite <- QC. now apply G.
  - apply X. cbn. rewrite QC, QN. auto.
Qed.
Lemma step_discard s i s' ev k name : NoDup (map c_sock (s_conns s)) -> stepd s i s' ev -> In (Discard k name) ev -> exists L s1, closes i s L /\ closing L s s1 ev.
Proof.
  intros ND E H.
  assert (NP: forall f m, ~ In (Discard k name) (to_partner f m s)) by (intros f m; unfold to_partner; destruct (by_sock f s); cbn; intros X; [destruct X as [X|[]]; discriminate|tauto]).
  destruct E as [f c0 sf|n on q s' ev J E|n on r1 k1 t1 d1 s' ev J E|i Q|n on k1 d1 f q o name1 p J F K|n on k1 f q o name1 p J F K|n on k1 d1 J|n on J DC|n ok k1 a f q o fnd J F A|n ok k1 name1 p f q o fnd ev J F EV
    |n ok k1 p f q fnd J F|n ok k1 p f q fnd J F|n ok k1 t1 f q o fnd ev J F EV|n ok k1 t1 f q w J F|n ok k1 t1 f q w p J F|n k1 code d1 m q o fnd J J2 F K|n r1 k1 t1 code m k0 o J J2 F|n m w J F X|n k1 d1 J
    |f q|g|i L s' ev CL C D|c0 k1 d1 L s1 ev CL C D]; try (exfalso; cbn in H; (destruct H as [H|[]]; discriminate) || tauto).
  - exfalso. destruct (request_done _ _ _ _ _ _ ND J E) as (q' & w & l & e & T & _ & ->). destruct H as [H|H]; [unfold asks_lookup in H; destruct (q_kind q); try discriminate; destruct on; discriminate|]. destruct T; cbn in H; try tauto. destruct H as [H|[]]; discriminate.
  - exfalso. unfold resource_step in E. destruct (cached (fst t1) (s_cache s)) as [e|] eqn:C; injection E as <- <-; [|now apply NP in H]. destruct H as [H|[]]. discriminate.
  - now apply NP in H.
  - exfalso. subst ev. unfold service_request in H. destruct o as [o|]; [destruct (trid_eqb (Some o) (q_trid q))|]; cbn in H; (destruct H as [H|[]]; discriminate) || tauto.
  - exfalso. unfold queue_request in H. destruct p; [|now apply NP in H]. destruct H as [H|[]]; discriminate.
  - exfalso. subst ev. unfold service_request in H. destruct fnd; cbn in H; (destruct H as [H|[]]; discriminate) || tauto.
  - exfalso. unfold queue_request in H. destruct p; [|now apply NP in H]. destruct H as [H|[]]; discriminate.
  - exfalso. unfold undelivered in H. destruct (q_kind q); now apply NP in H.
  - exists L, s'. auto.
  - exists L, s1. auto.
Qed.
Lemma discard_cause h i ev k name : happens (h ++ [(i, ev)]) -> unique h -> honest h -> In (Discard k name) ev -> exists c q, In (Destroyed c) ev /\ asked c q h /\ is_service q = true /\ q_corr q = k /\ q_name q = name /\ ~ found k h.
Proof.
  intros H U HO J. apply happens_snoc in H as (s & s' & R & P & E & R'). destruct (stepd_of _ _ _ _ _ R P E) as [IV SD]. destruct (step_discard _ _ _ _ _ _ (i_sock _ _ IV) SD J) as (L & s1 & CL & C).
  apply (cl_ev _ _ _ _ C) in J. destruct J as (t & q & o & T & HT & KB & QC & QN). apply hit_in in HT as [n [NL NS]]. pose proof (cl_in _ _ _ _ C n NL) as I. destruct (i_task _ _ IV t T) as (c & SO & KN). rewrite KB in KN. destruct KN as (q0 & A & SV & (S1 & S2 & _) & NM & _).
  assert (c = c_ipc n) by (apply (sock_of_unique s c (c_ipc n) (k_sock t)); auto; [apply IV|exists n; auto]). subst c. exists (c_ipc n), q0. split; [apply (cl_destroyed _ _ _ _ C n NL)|]. split; auto. split; auto. split; [congruence|]. split; [congruence|]. pose proof (reach_unanswered s h R U HO t T) as X. rewrite KB in X. cbn in X. now rewrite <- QC.
Qed.
