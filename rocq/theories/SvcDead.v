(* Deadlines: what is announced is kept, in order, and expires at its time. *)
From Coq Require Import ZArith List Bool Lia.
From Verif Require Import FanModel SvcModel SvcSpec SvcLemmas SvcInv SvcStep SvcRes SvcCount.
Import ListNotations.
Local Open Scope Z_scope.

Definition dpair (x : entry) : Z * Z := (d_when x, d_corr x).
Definition dmap (l : list entry) : list (Z * Z) := map dpair l.
Inductive dsorted : list entry -> Prop :=
| ds_nil : dsorted []
| ds_cons x l : dsorted l -> Forall (fun y => d_when x <= d_when y) l -> dsorted (x :: l).
Definition armed (s : state) : Prop := match s_dead s with [] => True | x :: _ => s_timer s = T_at (d_when x) end.
(* no deadline given to a queued lookup *)
Definition noq (o : list out) : Prop := forall r d, ~ In (O_queued r (Some d)) o.
Lemma noq_app a b : noq (a ++ b) <-> noq a /\ noq b.
Proof. unfold noq. split; [intros H; split; intros r d Hp; apply (H r d), in_or_app; auto|]. intros [H1 H2] r d Hp. apply in_app_or in Hp. destruct Hp; [eapply H1|eapply H2]; eauto. Qed.

Record dst (Q : Prop) (L N : list (Z * Z)) (s : state) : Prop := {
  k_in : incl L (dmap (s_dead s)); k_out : incl (dmap (s_dead s)) N; k_sort : dsorted (s_dead s); k_arm : Q -> armed s }.
Definition ann (o : list out) : list (Z * Z) := announced (map Eff o).
Definition dd (Q : Prop) (L N : list (Z * Z)) (x : state * list out) : Prop := dst (Q /\ noq (snd x)) (L ++ ann (snd x)) (N ++ ann (snd x)) (fst x).

Lemma ann_app a b : ann (a ++ b) = ann a ++ ann b.
Proof. unfold ann, announced. rewrite map_app, flat_map_app. reflexivity. Qed.
Lemma due_eff o : forall L, fold_left due1 (map Eff o) L = L ++ ann o.
Proof.
  induction o as [|x o IH]; intros L; cbn [map fold_left]; [symmetry; apply app_nil_r|]. rewrite IH. unfold due1, ann, announced. cbn [map flat_map]. rewrite app_assoc. reflexivity.
Qed.
Lemma dst_mono (Q Q' : Prop) L N s : (Q' -> Q) -> dst Q L N s -> dst Q' L N s.
Proof. intros H [A B C D]. split; auto. Qed.
Lemma dst_eq Q L N s s' : s_dead s' = s_dead s -> s_timer s' = s_timer s -> dst Q L N s -> dst Q L N s'.
Proof. intros E1 E2 [A B C D]. split; [rewrite E1; exact A|rewrite E1; exact B|rewrite E1; exact C|]. unfold armed in *. rewrite E1, E2. exact D. Qed.
Lemma dd_then Q L N x f : dd Q L N x -> dd (Q /\ noq (snd x)) (L ++ ann (snd x)) (N ++ ann (snd x)) (f (fst x)) -> dd Q L N (then_ x f).
Proof.
  intros H1 H2. unfold dd in *. rewrite then_fst, then_snd, ann_app. rewrite !app_assoc. eapply dst_mono; [|exact H2]. rewrite noq_app. tauto.
Qed.
(* effects without deadlines *)
Definition plain (x : out) : bool := match announces (Eff x) with [] => true | _ => false end.
Lemma ann_plain o : forallb plain o = true -> ann o = [] /\ noq o.
Proof.
  induction o as [|x o IH]; intros H; [split; [reflexivity|intros r d []]|]. cbn [forallb] in H. apply andb_prop in H. destruct H as [H1 H2]. destruct (IH H2) as [A B].
  unfold plain in H1. split.
  - unfold ann, announced. cbn [map flat_map]. destruct (announces (Eff x)); [exact A|discriminate].
  - intros r d [->|Hin]; [discriminate H1|eapply B; eauto].
Qed.
Lemma dd_plain (Q : Prop) L N s o : dst Q L N s -> forallb plain o = true -> dd Q L N (s, o).
Proof. intros H1 H2. destruct (ann_plain o H2) as [A B]. unfold dd. cbn [fst snd]. rewrite A, !app_nil_r. eapply dst_mono; [|exact H1]. tauto. Qed.

Lemma dead_insert_in e l y : In y (dead_insert e l) <-> y = e \/ In y l.
Proof. induction l as [|x l IH]; cbn [dead_insert]; [cbn; intuition|]. destruct (_ <? _); cbn; [intuition|]. rewrite IH. intuition. Qed.
Lemma dead_insert_sorted e l : dsorted l -> dsorted (dead_insert e l).
Proof.
  induction 1 as [|x l H IH F]; cbn [dead_insert]; [repeat constructor|]. destruct (Z.ltb_spec (d_when e) (d_when x)).
  - constructor; [constructor; assumption|]. constructor; [lia|]. eapply Forall_impl; [|exact F]. cbn. intros; lia.
  - constructor; [exact IH|]. apply Forall_forall. intros y Hy. apply dead_insert_in in Hy. destruct Hy as [->|Hy]; [lia|]. rewrite Forall_forall in F. auto.
Qed.
Lemma dead_update_map c t v l : dmap (dead_update c t v l) = dmap l.
Proof. induction l as [|x l IH]; cbn; [reflexivity|]. destruct (Z.eqb_spec (d_corr x) c) as [E|]; cbn; [unfold dpair; cbn; rewrite E; reflexivity|]. f_equal. exact IH. Qed.
Lemma dsorted_map l l' : dmap l' = dmap l -> dsorted l -> dsorted l'.
Proof.
  intros H D. revert l' H. induction D as [|x l D IH F]; intros [|y l'] H; try discriminate; [constructor|]. injection H as E1 E2 H. constructor; [apply IH; exact H|].
  apply Forall_forall. intros z Hz. rewrite Forall_forall in F. assert (Hm : In (dpair z) (dmap l)) by (rewrite <- H; apply in_map; exact Hz).
  apply in_map_iff in Hm. destruct Hm as (w & Ew & Hw). injection Ew as Ew _. specialize (F w Hw). lia.
Qed.
Lemma dead_erase_in c l y : In y (dead_erase c l) -> In y l.
Proof. induction l as [|x l IH]; cbn [dead_erase]; [auto|]. destruct (_ =? _); cbn; intuition. Qed.
Lemma dead_erase_keep c l y : In y l -> d_corr y <> c -> In y (dead_erase c l).
Proof. induction l as [|x l IH]; cbn [dead_erase]; [auto|]. intros H N. destruct (Z.eqb_spec (d_corr x) c) as [E|]; destruct H as [->|H]; cbn; try contradiction; auto. Qed.
Lemma dead_erase_sorted c l : dsorted l -> dsorted (dead_erase c l).
Proof.
  induction 1 as [|x l H IH F]; cbn [dead_erase]; [constructor|]. destruct (_ =? _); [exact H|]. constructor; [exact IH|].
  apply Forall_forall. intros y Hy. rewrite Forall_forall in F. apply F. eapply dead_erase_in; eauto.
Qed.
Lemma dead_split now l : l = dead_expired now l ++ dead_rest now l.
Proof. induction l as [|x l IH]; cbn; [reflexivity|]. destruct (_ <=? _); cbn; [reflexivity|]. f_equal. exact IH. Qed.
Lemma dead_expired_lt now l x : In x (dead_expired now l) -> d_when x < now.
Proof. induction l as [|y l IH]; cbn; [intros []|]. destruct (Z.leb_spec now (d_when y)); [intros []|]. intros [<-|H0]; [lia|auto]. Qed.
Lemma dead_rest_ge now l x : dsorted l -> In x (dead_rest now l) -> now <= d_when x.
Proof.
  induction 1 as [|y l H IH F]; cbn [dead_rest]; [intros []|]. destruct (Z.leb_spec now (d_when y)); [|exact IH].
  intros [<-|Hx]; [exact H0|]. rewrite Forall_forall in F. specialize (F x Hx). lia.
Qed.
Lemma dead_rest_sorted now l : dsorted l -> dsorted (dead_rest now l).
Proof. induction 1 as [|y l H IH F]; cbn [dead_rest]; [constructor|]. destruct (_ <=? _); [constructor; assumption|exact IH]. Qed.
Lemma dead_find_in c l x : dead_find c l = Some x -> In x l /\ d_corr x = c.
Proof. intros H. apply find_some in H. destruct H as [A B]. apply Z.eqb_eq in B. auto. Qed.

(* ---------------------------------------------------------------- lookups *)
Lemma dd_lost Q L N ipc s : dst Q L N s -> dd Q L N (lost ipc s).
Proof. intros H. apply dd_plain; [|reflexivity]. eapply dst_eq; [| |exact H]; unfold undeliverable; destruct (find_seq ipc s); reflexivity. Qed.
Lemma dd_send Q L N e r d dl s : dst Q (L ++ ann [O_idle r d dl]) (N ++ ann [O_idle r d dl]) s -> dd Q L N (send_reply e r d dl s).
Proof.
  intros H. unfold send_reply. apply dd_then; cbn [fst snd].
  - unfold dd. cbn [fst snd]. eapply dst_mono; [|exact H]. tauto.
  - destruct (e_gone e _); [apply dd_lost|apply dd_plain; [|reflexivity]]; (eapply dst_mono; [|exact H]; tauto).
Qed.
Lemma dd_lookup cfg e r Q L N s : inv s -> dst Q L N s -> dd Q L N (lookup cfg e r s).
Proof.
  intros Hi D. pose proof (lookup_looked cfg e r s Hi) as Lk. destruct (lookup cfg e r s) as [s' o]. cbn [fst snd] in Lk. destruct Lk.
  - apply dd_plain; [exact D|reflexivity].
  - apply dd_plain; [eapply dst_eq; [| |exact D]; reflexivity|]. destruct H0 as [-> | (n & ->)]; reflexivity.
  - destruct D as [A B C E]. unfold dd. cbn [fst snd]. unfold ann, announced. cbn [map flat_map announces app]. split; cbn [queue with_pend with_dead s_dead].
    + intros y Hy. apply in_app_or in Hy. destruct Hy as [Hy | [<- | []]].
      * apply A in Hy. apply in_map_iff in Hy. destruct Hy as (x & <- & Hx). apply in_map, dead_insert_in. right. exact Hx.
      * apply in_map_iff. eexists. split; [|apply dead_insert_in; left; reflexivity]. reflexivity.
    + intros y Hy. apply in_map_iff in Hy. destruct Hy as (x & <- & Hx). apply dead_insert_in in Hx. apply in_or_app. destruct Hx as [->|Hx]; [right; left; reflexivity|].
      left. apply B, in_map. exact Hx.
    + apply dead_insert_sorted. exact C.
    + intros [_ Hn]. exfalso. apply (Hn r d). left. reflexivity.
  - apply dd_plain; [exact D|reflexivity].
  - rewrite <- surjective_pairing. apply dd_send. change (ann [O_idle r (D_con (ci_proc c)) (calculate_deadline v (e_now e) (r_deadline r))]) with (@nil (Z * Z)). rewrite !app_nil_r.
    eapply dst_eq; [| |exact D]; subst s1; (destruct (_ =? _); [reflexivity|]; destruct (assoc_of _ _); [destruct (mem _ _)|]; reflexivity).
  - rewrite <- surjective_pairing. apply dd_send. destruct D as [A B C E]. subst s1.
    match goal with H : deadline_is _ _ _ _ _ _ _ _ _ |- _ => destruct H as [x Hx|dn Hx Hc x|Hx Hc] end.
    + destruct (dead_find_in _ _ _ Hx) as [Hin Ec]. change (ann [O_idle r (D_seq (q_proc q)) (Some (d_when x))]) with [(d_when x, r_corr r)].
      assert (Hp : In (d_when x, r_corr r) (dmap (s_dead s))) by (rewrite <- Ec; apply (in_map dpair); exact Hin).
      split; cbn [with_timer with_dead s_dead]; [rewrite dead_update_map|rewrite dead_update_map| |].
      * intros y Hy. apply in_app_or in Hy. destruct Hy as [Hy | [<- | []]]; auto.
      * intros y Hy. apply in_or_app. left. auto.
      * eapply dsorted_map; [apply dead_update_map|exact C].
      * intros HQ. specialize (E HQ). unfold armed in *. cbn [with_timer with_dead s_dead s_timer]. destruct (s_dead s) as [|z l]; [exact I|]. cbn [dead_update]. destruct (_ =? _); exact E.
    + subst x. change (ann [O_idle r (D_seq (q_proc q)) (Some dn)]) with [(dn, r_corr r)]. split; cbn [with_timer with_dead s_dead].
      * intros y Hy. apply in_app_or in Hy. destruct Hy as [Hy | [<- | []]].
        -- apply A in Hy. apply in_map_iff in Hy. destruct Hy as (z & <- & Hz). apply in_map, dead_insert_in. right. exact Hz.
        -- apply in_map_iff. eexists. split; [|apply dead_insert_in; left; reflexivity]. reflexivity.
      * intros y Hy. apply in_map_iff in Hy. destruct Hy as (z & <- & Hz). apply dead_insert_in in Hz. apply in_or_app. destruct Hz as [->|Hz]; [right; left; reflexivity|].
        left. apply B, in_map. exact Hz.
      * apply dead_insert_sorted. exact C.
      * intros HQ. specialize (E HQ). unfold armed in *. cbn [with_timer with_dead s_dead s_timer]. destruct (s_dead s) as [|z l]; [reflexivity|]. cbn [dead_insert dead_first d_when].
        destruct (dn <? d_when z); [reflexivity|exact E].
    + change (ann [O_idle r (D_seq (q_proc q)) None]) with (@nil (Z * Z)). rewrite !app_nil_r. split; assumption.
Qed.
Lemma dd_again cfg e l : forall Q L N s, inv s -> dst Q L N s -> dd Q L N (lookup_again cfg e l s).
Proof.
  unfold lookup_again. induction l as [|p l IH]; intros Q L N s Hi D; cbn [each]; [apply dd_plain; [exact D|reflexivity]|].
  apply dd_then; [apply dd_lookup; assumption|]. apply IH; [apply good_lookup; exact Hi|]. exact (dd_lookup cfg e (fst p) Q L N s Hi D).
Qed.
Lemma dd_serve cfg e i Q L N s : inv s -> (exists q, get (s_seq s) i = Some q) -> dst Q L N s -> dd Q L N (serve_first cfg e i s).
Proof.
  intros Hi (q & Hq) D. unfold serve_first. rewrite Hq. destruct (extract_first _ _) as [[p rest]|]; [|apply dd_plain; [exact D|reflexivity]].
  apply dd_lookup; [apply inv_pend; exact Hi|]. eapply dst_eq; [| |exact D]; reflexivity.
Qed.

(* ---------------------------------------------------------------- what doesn't touch deadlines *)
Definition dt (s : state) : list entry * timer := (s_dead s, s_timer s).
Lemma insert_service_dt cfg v s : dt (fst (insert_service cfg v s)) = dt s.
Proof.
  unfold insert_service. destruct (g_routes cfg (v_name v)) as [|n0 ns].
  - destruct (lookup_name (v_name v) s); [reflexivity|]. destruct (insert v (s_svc s)). reflexivity.
  - destruct (lookup_name (v_name v) s); [reflexivity|]. destruct (first_known (n0 :: ns) s); [reflexivity|]. destruct (insert v (s_svc s)). reflexivity.
Qed.
Lemma fold_dt {A} (g : state -> A -> state) l : (forall s x, dt (g s x) = dt s) -> forall s, dt (fold_left g l s) = dt s.
Proof. intros Hg. induction l as [|x l IH]; intros s; cbn [fold_left]; [reflexivity|]. rewrite IH. apply Hg. Qed.
Lemma remove_process_dt p s : dt (fst (remove_process p s)) = dt s.
Proof. unfold remove_process. cbn [fst]. rewrite fold_dt by reflexivity. apply fold_dt. reflexivity. Qed.
Lemma find_or_add_dt h s : dt (fst (find_or_add_seq h s)) = dt s.
Proof. unfold find_or_add_seq. destruct (find_seq _ _); [reflexivity|]. destruct (insert _ _). reflexivity. Qed.
Lemma adv_seq_dt cfg h alias add rem s : dt (fst (adv_seq cfg h alias add rem s)) = dt s.
Proof.
  unfold adv_seq. pose proof (find_or_add_dt h s) as H.
  destruct (find_or_add_seq h s) as [s0 i]. cbn [fst] in *. unfold remove_seq_services. rewrite fold_dt.
  - rewrite fold_dt; [exact H|]. intros s1 n. unfold add_seq_service. pose proof (insert_service_dt cfg (mk_v n (g_timeout cfg) (g_fatal cfg) [] [] 0) s1) as E.
    destruct (insert_service cfg _ s1). exact E.
  - intros s1 vi. destruct (get _ vi); [|reflexivity]. destruct (memz _ _); reflexivity.
Qed.
Lemma adv_con_dt cfg h alias order add rem s : dt (adv_con cfg h alias order add rem s) = dt s.
Proof.
  unfold adv_con. assert (H : dt (fst (find_or_add_con h s)) = dt s).
  { unfold find_or_add_con. destruct (find_con _ _); [reflexivity|]. destruct (insert _ _). reflexivity. }
  destruct (find_or_add_con h s) as [s0 i]. cbn [fst] in *. unfold remove_con_services. rewrite fold_dt.
  - rewrite fold_dt; [exact H|]. intros s1 [[n hops] t]. unfold add_con_service. pose proof (insert_service_dt cfg (mk_v n (if (0 <? t)%Z then Some t else None) false [] [] 0) s1) as E.
    destruct (insert_service cfg _ s1). exact E.
  - intros s1 vi. destruct (get _ vi); [|reflexivity]. destruct (memz _ _); reflexivity.
Qed.
Lemma prepare_services_dt i l s : dt (fst (fst (prepare_services i l s))) = dt s.
Proof.
  unfold prepare_services. generalize (@nil Z) true. revert s. induction l as [|vi l IH]; intros s ns ok; cbn [fold_left]; [reflexivity|].
  destruct (get (s_svc s) vi); rewrite IH; reflexivity.
Qed.
Lemma prepare_each_dt hs : forall s s' ns is us ok, prepare_each hs s = (s', ns, is, us, ok) -> dt s' = dt s.
Proof.
  induction hs as [|h hs IH]; intros s s' ns is us ok H; cbn [prepare_each] in H; [injection H as <- <- <- <- <-; reflexivity|].
  destruct (find_seq (h_ipc h) s) as [i|].
  - assert (Hp : forall x, dt (fst (fst (match get (s_seq s) i with Some q => prepare_services i (q_serv q) s | None => (s, [], false) end))) = x -> dt s = x).
    { intros x <-. destruct (get (s_seq s) i); [symmetry; apply prepare_services_dt|reflexivity]. }
    destruct (match get (s_seq s) i with Some q => _ | None => _ end) as [[s1 ns1] ok1]. destruct (prepare_each hs s1) as [[[[s2 ns2] is2] us2] ok2] eqn:E. injection H as <- <- <- <- <-.
    rewrite (IH _ _ _ _ _ _ E). symmetry. apply Hp. reflexivity.
  - destruct (prepare_each hs s) as [[[[s2 ns2] is2] us2] ok2] eqn:E. injection H as <- <- <- <- <-. eapply IH; eauto.
Qed.
Lemma dst_dt Q L N s s' : dt s' = dt s -> dst Q L N s -> dst Q L N s'.
Proof. intros E. injection E as E1 E2. apply dst_eq; assumption. Qed.
Lemma expire_one_dt x s : dt (fst (expire_one x s)) = dt s /\ forallb plain (snd (expire_one x s)) = true.
Proof.
  unfold expire_one. destruct (extract_first _ _) as [[p rest]|]; [auto|]. destruct (d_serv x); [|auto]. destruct (d_target x); [|auto]. destruct (get _ _); [|auto]. destruct (get _ _) as [q|]; [|auto].
  destruct (_ =? _); [|auto]. cbv zeta. destruct (h_valid _); [|auto]. destruct (v_fatal _); auto.
Qed.
Lemma each_expire_dt l : forall s, dt (fst (each expire_one l s)) = dt s /\ forallb plain (snd (each expire_one l s)) = true.
Proof.
  induction l as [|x l IH]; intros s; cbn [each]; [auto|]. rewrite then_fst, then_snd, forallb_app. destruct (expire_one_dt x s) as [A B]. destruct (IH (fst (expire_one x s))) as [C D].
  rewrite C, D, B. auto.
Qed.
Lemma plain_shutdown ds : forallb plain (map shutdown_fired ds) = true.
Proof. induction ds; cbn; auto. Qed.
Lemma plain_error cs b : forallb plain (map (fun c => O_error c b) cs) = true.
Proof. induction cs; cbn; auto. Qed.

Lemma dd_timeout e Q L N s : dst Q L N s -> dd Q (filter (fun y => e_now e <=? fst y) L) N (timeout e s) /\ armed (fst (timeout e s)).
Proof.
  intros [A B C D]. unfold timeout.
  set (ex := dead_expired (e_now e) (s_dead s)). set (rest := dead_rest (e_now e) (s_dead s)).
  destruct (each_expire_dt ex (with_dead rest s)) as [H1 H2]. injection H1 as H1 H1'. destruct (ann_plain _ H2) as [H3 H4].
  assert (G : armed (fst (then_ (each expire_one ex (with_dead rest s)) (fun s => match rest with [] => (s, []) | x :: _ => (with_timer (T_at (d_when x)) s, []) end)))).
  { rewrite then_fst. unfold armed. destruct rest as [|x r] eqn:Er; cbn [fst with_timer s_dead s_timer]; rewrite H1; cbn [with_dead s_dead]; auto. }
  split; [|exact G]. unfold dd. rewrite then_snd, ann_app, H3. replace (ann (snd _)) with (@nil (Z * Z)) by (destruct rest; reflexivity). rewrite !app_nil_r.
  assert (Hd : s_dead (fst (then_ (each expire_one ex (with_dead rest s)) (fun s => match rest with [] => (s, []) | x :: _ => (with_timer (T_at (d_when x)) s, []) end))) = rest).
  { rewrite then_fst. destruct rest; cbn [fst with_timer s_dead]; rewrite H1; reflexivity. }
  split; try rewrite Hd.
  - intros y Hy. apply filter_In in Hy. destruct Hy as [Hy Hle]. apply Z.leb_le in Hle. apply A in Hy. rewrite (dead_split (e_now e) (s_dead s)) in Hy. unfold dmap in Hy. rewrite map_app in Hy.
    apply in_app_or in Hy. destruct Hy as [Hy|Hy]; [|exact Hy]. exfalso. apply in_map_iff in Hy. destruct Hy as (x & <- & Hx). apply dead_expired_lt in Hx. cbn in Hle. lia.
  - intros y Hy. apply B. rewrite (dead_split (e_now e) (s_dead s)). unfold dmap. rewrite map_app. apply in_or_app. right. exact Hy.
  - apply dead_rest_sorted. exact C.
  - intros _. exact G.
Qed.

Lemma dst_dead_remove corr Q L N s : dst Q L N s -> dst Q (filter (fun y => negb (snd y =? corr)) L) N (dead_remove corr s).
Proof.
  intros [A B C D]. assert (Hd : s_dead (dead_remove corr s) = dead_erase corr (s_dead s)).
  { unfold dead_remove. destruct (s_dead s) as [|x r] eqn:E; [rewrite E; reflexivity|]. cbv zeta. destruct (d_corr x =? corr) eqn:Ec; [destruct r|]; reflexivity. }
  split; [rewrite Hd|rewrite Hd|rewrite Hd|].
  - intros y Hy. apply filter_In in Hy. destruct Hy as [Hy Hn]. apply A in Hy. apply in_map_iff in Hy. destruct Hy as (x & <- & Hx). apply negb_true_iff, Z.eqb_neq in Hn.
    apply in_map. apply dead_erase_keep; assumption.
  - intros y Hy. apply B. apply in_map_iff in Hy. destruct Hy as (x & <- & Hx). apply in_map. eapply dead_erase_in; eauto.
  - apply dead_erase_sorted. exact C.
  - intros HQ. specialize (D HQ). unfold armed in *. rewrite Hd. unfold dead_remove. destruct (s_dead s) as [|x r]; [exact I|]. cbn [dead_erase]. cbv zeta. destruct (d_corr x =? corr).
    + destruct r as [|y r]; [exact I|reflexivity].
    + exact D.
Qed.

Lemma due1_rcv L e i : match i with I_timeout | I_ack _ _ _ => False | _ => True end -> due1 L (Rcv e i) = L.
Proof. destruct i; cbn; intros H; try contradiction; apply app_nil_r. Qed.

Theorem step_dd cfg e i Q L N s : inv s -> dst Q L N s -> dd Q (due1 L (Rcv e i)) N (step cfg e i s).
Proof.
  intros Hi D. destruct i; try (rewrite due1_rcv by exact I); cbn [step].
  - apply advertise_cases.
    + intros _. apply dd_plain; [exact D|reflexivity].
    + intros _ _ _. apply dd_plain; [eapply dst_dt; [apply remove_process_dt|exact D]|reflexivity].
    + intros s0 i _ _ E _. apply dd_plain; [|reflexivity]. pose proof (find_or_add_dt h s) as H. rewrite E in H. cbn [fst] in H. eapply dst_dt; [|exact D]. exact H.
    + intros s0 s1 i Hv _ _ _ E. destruct (adv_seq_inv _ _ _ _ _ _ _ _ Hi Hv E) as [Hi1 Hq]. pose proof (adv_seq_dt cfg h alias add remove s) as Hp. rewrite E in Hp. cbn [fst] in Hp.
      apply dd_serve; [assumption|assumption|]. eapply dst_dt; eauto.
  - apply advertise_con_cases.
    + intros _. apply dd_plain; [exact D|reflexivity].
    + intros _ _. apply dd_plain; [eapply dst_dt; [apply remove_process_dt|exact D]|reflexivity].
    + intros _ _ _. apply dd_plain; [exact D|reflexivity].
    + intros i _ _ _. apply dd_plain; [eapply dst_eq; [| |exact D]; reflexivity|reflexivity].
    + intros s1 found rest Hv _ -> Ep. apply dd_again; [apply inv_pend, adv_con_inv; assumption|]. eapply dst_dt; [|exact D]. pose proof (adv_con_dt cfg h alias order add remove s) as H. exact H.
  - apply dd_lookup; assumption.
  - unfold discard. destruct (extract_first _ _) as [[p rest]|]; (apply dd_plain; [eapply dst_eq; [| |exact D]; reflexivity|destruct reply; reflexivity]).
  - unfold ack. pose proof (ack_state_inv corr h trid s Hi) as Hi1. apply dd_then.
    + cbn [due1]. unfold notify_tm. assert (Hr : dst Q (filter (fun y => negb (snd y =? corr)) L) N (dead_remove corr s)) by (apply dst_dead_remove; exact D).
      destruct (negb trid); [apply dd_plain; [exact Hr|reflexivity]|]. destruct (extract_first _ _) as [[x l]|]; (apply dd_plain; [eapply dst_eq; [| |exact Hr]; reflexivity|reflexivity]).
    + cbn [due1]. set (L1 := filter _ L ++ _). set (N1 := N ++ _). set (s1 := fst (notify_tm _ _ _)) in *. set (Q1 := Q /\ _).
      assert (Hr : dst Q1 L1 N1 s1).
      { subst Q1 L1 N1 s1. assert (Hr : dst Q (filter (fun y => negb (snd y =? corr)) L) N (dead_remove corr s)) by (apply dst_dead_remove; exact D).
        unfold notify_tm. destruct (negb trid); cbn [fst snd]; [rewrite !app_nil_r; eapply dst_mono; [|exact Hr]; tauto|].
        destruct (extract_first _ _) as [[x l]|]; cbn [fst snd]; rewrite !app_nil_r; (eapply dst_mono; [|eapply dst_eq; [| |exact Hr]; reflexivity]; tauto). }
      destruct (find_seq _ _) as [i|] eqn:Ef; [|apply dd_plain; [exact Hr|reflexivity]]. destruct (find_seq_some _ _ _ Ef) as (q & Hq & _). cbn [with_seq s_disabled s_fan]. destruct (mem i _).
      * destruct (flive_reply corr (h_pid h) _ (i_fan _ Hi1)) as (fa & ds & -> & Hf). apply dd_plain; [eapply dst_eq; [| |exact Hr]; reflexivity|apply plain_shutdown].
      * apply dd_serve; [apply inv_free; exact Hi1| |eapply dst_eq; [| |exact Hr]; reflexivity]. cbn [with_seq s_seq]. rewrite get_upd, Nat.eqb_refl, Hq. eexists. reflexivity.
  - unfold process_exit. pose proof (flive_failed pid _ (i_fan _ Hi)) as Hf. destruct (fan_failed pid (s_fan s)) as [fa ds]. cbn [fst] in Hf.
    pose proof (inv_remove_process (fun x => (h_pid x =? pid)%Z) _ (inv_fan s fa Hi Hf)) as Hr. pose proof (remove_process_dt (fun x => (h_pid x =? pid)%Z) (with_fan fa s)) as Hp.
    destruct (remove_process _ _) as [s1 cs]. cbn [fst] in Hr, Hp.
    assert (D1 : dst Q L N s1) by (eapply dst_dt; [exact Hp|]; eapply dst_eq; [| |exact D]; reflexivity).
    assert (Hpl : forallb plain (map shutdown_fired ds ++ map (fun c => O_error c false) cs) = true) by (rewrite forallb_app, plain_shutdown, plain_error; reflexivity).
    destruct (ann_plain _ Hpl) as [Ha Hn]. apply dd_then; cbn [fst snd].
    + apply dd_plain; [eapply dst_eq; [| |exact D1]; reflexivity|exact Hpl].
    + rewrite Ha, !app_nil_r. eapply dd_again; [apply inv_pend, inv_late; exact Hr|]. eapply dst_mono; [|eapply dst_eq; [| |exact D1]; reflexivity]. tauto.
  - apply dd_timeout. exact D.
  - unfold prepare. destruct (prepare_each hs s) as [[[[s1 ns] is] us] ok] eqn:Ep. destruct (prepare_each_inv _ _ _ _ _ _ _ Hi Ep) as (Hi1 & -> & _ & Hp1). cbv zeta.
    pose proof (prepare_each_dt _ _ _ _ _ _ _ Ep) as Hdt. assert (D1 : dst Q L N s1) by (eapply dst_dt; eauto).
    destruct (partition _ _) as [found rest] eqn:Epa.
    assert (D2 : dd Q L N (lookup_again cfg e found (with_pend rest s1))) by (apply dd_again; [apply inv_pend; exact Hi1|eapply dst_eq; [| |exact D1]; reflexivity]).
    apply dd_then; [exact D2|]. unfold dd in D2. set (s2 := fst (lookup_again _ _ _ _)) in *. set (now := match filter _ is with [] => match us with [] => [] | _ => _ end | _ => _ end).
    assert (Hn : forallb plain now = true).
    { subst now. destruct (filter (fun i => negb (seq_busy i s2)) is); [destruct us|]; reflexivity. }
    destruct (filter (fun i => seq_busy i s2) is) as [|b bs]; [apply dd_plain; [exact D2|exact Hn]|].
    destruct (fan_start _ _ _) as [fa ds]. apply dd_plain; [eapply dst_eq; [| |exact D2]; reflexivity|]. rewrite forallb_app, Hn, plain_shutdown. reflexivity.
  - apply dd_plain; [eapply dst_eq; [| |exact D]; reflexivity|reflexivity].
  - unfold discovered. destruct (extract_first _ _) as [[p rest]|] eqn:E; [|apply dd_plain; [exact D|reflexivity]]. cbv zeta.
    match goal with |- dd _ _ _ (if ?x then _ else _) => destruct x end; [apply dd_lookup; [apply inv_pend; exact Hi|eapply dst_eq; [| |exact D]; reflexivity]|].
    destruct (r_sem _); (apply dd_plain; [eapply dst_eq; [| |exact D]; reflexivity|reflexivity]).
  - apply dd_lost. exact D.
Qed.

(* ---------------------------------------------------------------- never early *)
Definition timeless (x : out) : bool := match x with O_timeout _ | O_error _ true => false | _ => true end.
Lemma timeless_not x c : timeless x = true -> ~ times_out x c.
Proof. destruct x; cbn; try tauto; try discriminate. destruct timeout; [discriminate|tauto]. Qed.
Definition untimed (x : state * list out) : Prop := forallb timeless (snd x) = true.
Lemma untimed_then x f : untimed x -> untimed (f (fst x)) -> untimed (then_ x f).
Proof. unfold untimed. intros H1 H2. rewrite then_snd, forallb_app, H1, H2. reflexivity. Qed.
Lemma untimed_send e r d dl s : untimed (send_reply e r d dl s).
Proof. unfold send_reply. apply untimed_then; [reflexivity|]. cbn [fst]. destruct (e_gone e _); reflexivity. Qed.
Lemma untimed_lookup cfg e r s : inv s -> untimed (lookup cfg e r s).
Proof.
  intros Hi. pose proof (lookup_looked cfg e r s Hi) as L. unfold untimed. destruct (lookup cfg e r s) as [s' o]. cbn [fst snd] in *.
  destruct L; try reflexivity; try apply untimed_send. destruct H0 as [-> | (n & ->)]; reflexivity.
Qed.
Lemma untimed_again cfg e l : forall s, inv s -> untimed (lookup_again cfg e l s).
Proof.
  unfold lookup_again. induction l as [|p l IH]; intros s Hi; cbn [each]; [reflexivity|]. apply untimed_then; [apply untimed_lookup; exact Hi|]. apply IH, good_lookup. exact Hi.
Qed.
Lemma untimed_serve cfg e i s : inv s -> (exists q, get (s_seq s) i = Some q) -> untimed (serve_first cfg e i s).
Proof. intros Hi (q & Hq). unfold serve_first. rewrite Hq. destruct (extract_first _ _) as [[p rest]|]; [|reflexivity]. apply untimed_lookup, inv_pend. exact Hi. Qed.
Lemma timeless_shutdown ds : forallb timeless (map shutdown_fired ds) = true.
Proof. induction ds; cbn; auto. Qed.
Lemma timeless_error cs : forallb timeless (map (fun c => O_error c false) cs) = true.
Proof. induction cs; cbn; auto. Qed.
Lemma step_untimed cfg e i s : inv s -> i <> I_timeout -> untimed (step cfg e i s).
Proof.
  intros Hi Hne. destruct i; cbn [step].
  - apply advertise_cases; try reflexivity. intros s0 s1 i Hv _ _ _ E. destruct (adv_seq_inv _ _ _ _ _ _ _ _ Hi Hv E) as [Hi1 Hq]. apply untimed_serve; assumption.
  - apply advertise_con_cases; try reflexivity. intros s1 found rest Hv _ -> Ep. apply untimed_again, inv_pend, adv_con_inv; assumption.
  - apply untimed_lookup. exact Hi.
  - unfold discard. destruct (extract_first _ _) as [[p rest]|]; destruct reply; reflexivity.
  - unfold ack. pose proof (ack_state_inv corr h trid s Hi) as Hi1. apply untimed_then.
    + unfold notify_tm. destruct (negb trid); [reflexivity|]. destruct (extract_first _ _) as [[x l]|]; reflexivity.
    + destruct (find_seq _ _) as [i|] eqn:Ef; [|reflexivity]. destruct (find_seq_some _ _ _ Ef) as (q & Hq & _). cbn [with_seq s_disabled s_fan]. destruct (mem i _).
      * destruct (flive_reply corr (h_pid h) _ (i_fan _ Hi1)) as (fa & ds & -> & Hf). apply timeless_shutdown.
      * apply untimed_serve; [apply inv_free; exact Hi1|]. cbn [with_seq s_seq]. rewrite get_upd, Nat.eqb_refl, Hq. eexists. reflexivity.
  - unfold process_exit. pose proof (flive_failed pid _ (i_fan _ Hi)) as Hf. destruct (fan_failed pid (s_fan s)) as [fa ds]. cbn [fst] in Hf.
    pose proof (inv_remove_process (fun x => (h_pid x =? pid)%Z) _ (inv_fan s fa Hi Hf)) as Hr. destruct (remove_process _ _) as [s1 cs]. cbn [fst] in Hr. apply untimed_then.
    + unfold untimed. cbn [snd]. rewrite forallb_app, timeless_shutdown, timeless_error. reflexivity.
    + apply untimed_again, inv_pend, inv_late. exact Hr.
  - contradiction.
  - unfold prepare. destruct (prepare_each hs s) as [[[[s1 ns] is] us] ok] eqn:Ep. destruct (prepare_each_inv _ _ _ _ _ _ _ Hi Ep) as (Hi1 & -> & _ & _). cbv zeta.
    destruct (partition _ _) as [found rest] eqn:Epa. apply untimed_then; [apply untimed_again, inv_pend; exact Hi1|].
    set (s2 := fst (lookup_again _ _ _ _)) in *. set (now := match filter _ is with [] => match us with [] => [] | _ => _ end | _ => _ end).
    assert (Hn : forallb timeless now = true).
    { subst now. destruct (filter (fun i => negb (seq_busy i s2)) is); [destruct us|]; reflexivity. }
    destruct (filter (fun i => seq_busy i s2) is) as [|b bs]; [exact Hn|].
    destruct (fan_start _ _ _) as [fa ds]. unfold untimed. cbn [snd]. rewrite forallb_app, Hn, timeless_shutdown. reflexivity.
  - reflexivity.
  - unfold discovered. destruct (extract_first _ _) as [[p rest]|] eqn:E; [|reflexivity]. cbv zeta.
    match goal with |- untimed (if ?x then _ else _) => destruct x end; [apply untimed_lookup, inv_pend; exact Hi|]. destruct (r_sem _); reflexivity.
  - reflexivity.
Qed.

Lemma expire_one_from x s y c : In y (snd (expire_one x s)) -> times_out y c -> d_corr x = c.
Proof.
  unfold expire_one. destruct (extract_first _ _) as [[p rest]|] eqn:E.
  - intros [<- | []] <-. destruct (extract_first_some _ _ _ _ E) as (a & b & _ & _ & Hp & _). cbn [fst] in Hp. apply Z.eqb_eq in Hp. auto.
  - destruct (d_serv x); [|intros []]. destruct (d_target x); [|intros []]. destruct (get _ _); [|intros []]. destruct (get _ _) as [q|]; [|intros []].
    destruct (Z.eqb_spec (c_corr (q_call q)) (d_corr x)) as [Eq|]; [|intros []]. cbv zeta. destruct (h_valid _); [|intros []].
    cbn [snd]. intros [<- | [<- | []]] H; [cbn in H; congruence|destruct H].
Qed.
Lemma each_expire_from l : forall s y c, In y (snd (each expire_one l s)) -> times_out y c -> exists x, In x l /\ d_corr x = c.
Proof.
  induction l as [|x l IH]; intros s y c; cbn [each]; [intros []|]. rewrite then_snd. intros Hin Ht. apply in_app_or in Hin. destruct Hin as [Hin|Hin].
  - exists x. split; [left; reflexivity|]. eapply expire_one_from; eauto.
  - destruct (IH _ _ _ Hin Ht) as (z & Hz & Ez). exists z. split; [right; exact Hz|exact Ez].
Qed.
Lemma timeout_from e Q L N s y c : dst Q L N s -> In y (snd (timeout e s)) -> times_out y c -> exists d, In (d, c) N /\ d < e_now e.
Proof.
  intros [_ B _ _] Hin Ht. unfold timeout in Hin. rewrite then_snd in Hin. apply in_app_or in Hin. destruct Hin as [Hin|Hin]; [|destruct (dead_rest _ _); destruct Hin].
  destruct (each_expire_from _ _ _ _ Hin Ht) as (x & Hx & <-). exists (d_when x). split; [|apply dead_expired_lt in Hx; exact Hx].
  apply B. apply (in_map dpair). rewrite (dead_split (e_now e) (s_dead s)). apply in_or_app. left. exact Hx.
Qed.

(* ---------------------------------------------------------------- histories *)
Lemma start_dt cfg conf : dt (start cfg conf) = dt empty.
Proof.
  unfold start. assert (H : forall s, dt (fold_left (fun s x => let '(n, t, f) := x in fst (insert_service cfg (mk_v n t f [] [] 0) s)) conf s) = dt s).
  { induction conf as [|[[n t] f] conf IH]; intros s; cbn [fold_left]; [reflexivity|]. rewrite IH. apply insert_service_dt. }
  apply H.
Qed.
Lemma start_dst cfg conf : dst True [] [] (start cfg conf).
Proof. eapply dst_dt; [apply start_dt|]. split; cbn; [intros y []|intros y []|constructor|auto]. Qed.
Definition noqs (t : list obs) : Prop := forall r d, ~ In (Eff (O_queued r (Some d))) t.
Lemma announced_app a b : announced (a ++ b) = announced a ++ announced b.
Proof. unfold announced. apply flat_map_app. Qed.
Lemma noqs_eff o : noqs (map Eff o) <-> noq o.
Proof.
  unfold noqs, noq. split; intros H r d Hin; [apply (H r d), (in_map Eff), Hin|]. apply in_map_iff in Hin. destruct Hin as (x & [= ->] & Hx). eapply H; eauto.
Qed.
Lemma run_dd cfg l : forall (Q : Prop) L N s, inv s -> dst Q L N s -> dst (Q /\ noqs (snd (run cfg l s))) (fold_left due1 (snd (run cfg l s)) L) (N ++ announced (snd (run cfg l s))) (fst (run cfg l s)).
Proof.
  induction l as [|[e i] l IH]; intros Q L N s Hi D; cbn [run]; [cbn [fst snd fold_left announced flat_map]; rewrite app_nil_r; eapply dst_mono; [|exact D]; tauto|].
  pose proof (step_dd cfg e i Q L N s Hi D) as D1. pose proof (proj1 (step_good cfg e i s Hi)) as Hi1. destruct (step cfg e i s) as [s1 o]. unfold dd in D1. cbn [fst snd] in *.
  specialize (IH _ _ _ s1 Hi1 D1). destruct (run cfg l s1) as [s2 t]. cbn [fst snd] in *. cbn [fold_left]. rewrite fold_left_app, due_eff.
  change (announced (Rcv e i :: map Eff o ++ t)) with (announced (map Eff o ++ t)). rewrite announced_app. fold (ann o). rewrite app_assoc. eapply dst_mono; [|exact IH].
  intros [HQ Hn]. split; [split; [exact HQ|]|].
  - apply noqs_eff. intros r d Hin. apply (Hn r d). right. apply in_or_app. left. exact Hin.
  - intros r d Hin. apply (Hn r d). right. apply in_or_app. right. exact Hin.
Qed.
Lemma reaches_dd cfg l t s : reaches cfg l t s -> inv s /\ dst (noqs t) (due t) (announced t) s.
Proof.
  intros (conf & H). pose proof (run_dd cfg l True [] [] _ (start_inv cfg conf) (start_dst cfg conf)) as D. pose proof (run_inv cfg l _ (start_inv cfg conf)) as Hi.
  rewrite H in D, Hi. cbn [fst snd] in *. split; [apply Hi|]. eapply dst_mono; [|exact D]. tauto.
Qed.

Lemma run_early cfg l : forall Q L N s, inv s -> dst Q L N s -> forall t1 y t2 c, snd (run cfg l s) = t1 ++ Eff y :: t2 -> times_out y c ->
  exists t3 e t4 d, t1 = t3 ++ Rcv e I_timeout :: map Eff t4 /\ In (d, c) (N ++ announced t3) /\ d < e_now e.
Proof.
  induction l as [|[e i] l IH]; intros Q L N s Hi D t1 y t2 c H Ht; cbn [run] in H; [destruct t1; discriminate|].
  pose proof (step_dd cfg e i Q L N s Hi D) as D1. pose proof (proj1 (step_good cfg e i s Hi)) as Hi1.
  assert (Hy : forall y, In y (snd (step cfg e i s)) -> times_out y c -> i = I_timeout /\ exists d, In (d, c) N /\ d < e_now e).
  { intros z Hz Htz. assert (Hd : {i = I_timeout} + {i <> I_timeout}) by (destruct i; (left; reflexivity) || (right; discriminate)). destruct Hd as [->|Hne].
    - split; [reflexivity|]. eapply timeout_from; eauto.
    - exfalso. pose proof (step_untimed cfg e i s Hi Hne) as Hu. unfold untimed in Hu. rewrite forallb_forall in Hu. exact (timeless_not z c (Hu z Hz) Htz). }
  destruct (step cfg e i s) as [s1 o]. unfold dd in D1. cbn [fst snd] in *.
  specialize (IH _ _ _ s1 Hi1 D1). destruct (run cfg l s1) as [s2 t] eqn:E. cbn [fst snd] in *.
  destruct t1 as [|x t1]; cbn [app] in H; [discriminate|]. injection H as <- H.
  assert (Hc : (exists o1 o2, o = o1 ++ y :: o2 /\ t1 = map Eff o1) \/ exists t3, t1 = map Eff o ++ t3 /\ t = t3 ++ Eff y :: t2).
  { clear - H. revert t1 H. induction o as [|w o IHo]; intros t1 H; [right; exists t1; auto|]. destruct t1 as [|z t1]; cbn [app map] in H.
    - injection H as <- _. left. exists [], o. auto.
    - injection H as <- H. destruct (IHo t1 H) as [(o1 & o2 & -> & ->)|(t3 & -> & Et)]; [left; exists (w :: o1), o2; auto|right; exists t3; auto]. }
  destruct Hc as [(o1 & o2 & -> & ->)|(t3 & -> & Et)].
  - destruct (Hy y) as [-> (d & Hd & Hlt)]; [apply in_or_app; right; left; reflexivity|exact Ht|]. exists [], e, o1, d. rewrite app_nil_r. auto.
  - destruct (IH _ _ _ _ Et Ht) as (t4 & e' & t5 & d & -> & Hd & Hlt). exists (Rcv e i :: map Eff o ++ t4), e', t5, d. split; [cbn [app]; rewrite <- app_assoc; reflexivity|].
    split; [|exact Hlt]. change (announced (Rcv e i :: map Eff o ++ t4)) with (announced (map Eff o ++ t4)). rewrite announced_app. fold (ann o). rewrite app_assoc. exact Hd.
Qed.
Theorem not_early cfg t t1 y t2 c : history cfg t -> t = t1 ++ Eff y :: t2 -> times_out y c ->
  exists t3 e t4 d, t1 = t3 ++ Rcv e I_timeout :: map Eff t4 /\ In (d, c) (announced t3) /\ d < e_now e.
Proof.
  intros (conf & l & ->) H Ht. exact (run_early cfg l True [] [] _ (start_inv cfg conf) (start_dst cfg conf) _ _ _ _ H Ht).
Qed.

(* ---------------------------------------------------------------- queued lookups expire *)
Lemma each_expire_all l : forall s r, (waits (fun x => (r_corr x =? r_corr r)%Z) (s_pend s) <= 1)%nat -> In r (queued s) ->
  (exists x, In x l /\ d_corr x = r_corr r) -> In (O_timeout r) (snd (each expire_one l s)).
Proof.
  induction l as [|x l IH]; intros s r W Hr (z & Hz & Ez); [destruct Hz|]. cbn [each]. rewrite then_snd. apply in_or_app.
  assert (Hcase : d_corr x = r_corr r \/ d_corr x <> r_corr r) by (destruct (Z.eq_dec (d_corr x) (r_corr r)); auto).
  apply in_map_iff in Hr. destruct Hr as (p & Ep & Hp).
  destruct Hcase as [Ex|Nx].
  - left. unfold expire_one. destruct (extract_first _ _) as [[p' rest]|] eqn:Ef.
    + destruct (extract_first_some _ _ _ _ Ef) as (a & b & Es & _ & Hp' & _). cbn [fst] in Hp'. apply Z.eqb_eq in Hp'. rewrite Ex in Hp'.
      left. f_equal. rewrite Es in Hp, W. rewrite waits_app, waits_cons in W. unfold one in W. rewrite (proj2 (Z.eqb_eq _ _) Hp') in W.
      assert (Hz0 : forall q, In q a \/ In q b -> r_corr (fst q) <> r_corr r).
      { intros q Hq Eq. assert (Hw : forall k, In q k -> (1 <= waits (fun x => (r_corr x =? r_corr r)%Z) k)%nat).
        { clear - Eq. intros k. induction k as [|w k IHk]; intros []; rewrite waits_cons; unfold one; [subst; rewrite (proj2 (Z.eqb_eq _ _) Eq); lia|specialize (IHk H); lia]. }
        destruct Hq as [Hq|Hq]; apply Hw in Hq; lia. }
      apply in_app_or in Hp. destruct Hp as [Hp | [-> |Hp]]; [exfalso; apply (Hz0 p); [auto|congruence]|exact Ep|exfalso; apply (Hz0 p); [auto|congruence]].
    + exfalso. pose proof (extract_first_none _ _ Ef p Hp) as Hn. cbn in Hn. apply Z.eqb_neq in Hn. congruence.
  - right. destruct Hz as [->|Hz]; [contradiction|]. apply IH; [| |exists z; auto].
    + unfold expire_one. destruct (extract_first _ _) as [[p' rest]|] eqn:Ef.
      * cbn [fst with_pend s_pend]. rewrite (extract_waits _ _ _ _ _ Ef) in W. lia.
      * destruct (d_serv x); [|exact W]. destruct (d_target x); [|exact W]. destruct (get _ _); [|exact W]. destruct (get _ _) as [q|]; [|exact W].
        destruct (_ =? _); [|exact W]. cbv zeta. destruct (h_valid _); [|exact W]. cbn [fst]. destruct (v_fatal _); exact W.
    + assert (Hq : In p (s_pend (fst (expire_one x s)))).
      { unfold expire_one. destruct (extract_first _ _) as [[p' rest]|] eqn:Ef.
        - destruct (extract_first_some _ _ _ _ Ef) as (a & b & Es & -> & Hp' & _). cbn [fst] in Hp'. apply Z.eqb_eq in Hp'. cbn [fst with_pend s_pend]. rewrite Es in Hp.
          apply in_app_or in Hp. apply in_or_app. destruct Hp as [Hp | [-> |Hp]]; auto. congruence.
        - destruct (d_serv x); [|exact Hp]. destruct (d_target x); [|exact Hp]. destruct (get _ _); [|exact Hp]. destruct (get _ _) as [q|]; [|exact Hp].
          destruct (_ =? _); [|exact Hp]. cbv zeta. destruct (h_valid _); [|exact Hp]. cbn [fst]. destruct (v_fatal _); exact Hp. }
      apply in_map_iff. exists p. auto.
Qed.
Theorem queued_expire cfg l t s e r d : reaches cfg l t s -> (count (asks (fun x => (r_corr x =? r_corr r)%Z)) t <= 1)%nat -> In r (queued s) ->
  In (d, r_corr r) (due t) -> d < e_now e -> In (O_timeout r) (snd (step cfg e I_timeout s)).
Proof.
  intros H Hc Hr Hd Hlt. destruct (reaches_dd _ _ _ _ H) as [Hi D]. pose proof (answered_once cfg l t s (fun x => (r_corr x =? r_corr r)%Z) H) as B.
  cbn [step]. unfold timeout. rewrite then_snd. apply in_or_app. left. apply each_expire_all.
  - cbn [with_dead s_pend]. unfold waits. unfold queued in B. assert (E : length (filter (fun x => (r_corr x =? r_corr r)%Z) (map fst (s_pend s))) = length (filter (fun p => (r_corr (fst p) =? r_corr r)%Z) (s_pend s))).
    { clear. induction (s_pend s) as [|p ps IH]; cbn; [reflexivity|]. destruct (_ =? _); cbn; auto. }
    lia.
  - exact Hr.
  - pose proof (k_in _ _ _ _ D _ Hd) as Hin. rewrite (dead_split (e_now e) (s_dead s)) in Hin. unfold dmap in Hin. rewrite map_app in Hin. apply in_app_or in Hin.
    destruct Hin as [Hin|Hin]; apply in_map_iff in Hin; destruct Hin as (x & Ex & Hx); injection Ex as E1 E2; [exists x; auto|].
    exfalso. apply (dead_rest_ge _ _ _ (k_sort _ _ _ _ D)) in Hx. lia.
Qed.

(* ---------------------------------------------------------------- the timer *)
Lemma armed_le s y : dsorted (s_dead s) -> armed s -> In y (dmap (s_dead s)) -> exists m, s_timer s = T_at m /\ m <= fst y /\ exists c, In (m, c) (dmap (s_dead s)).
Proof.
  intros S A Hy. unfold armed in A. destruct (s_dead s) as [|x l]; [destruct Hy|]. exists (d_when x). split; [exact A|]. split; [|exists (d_corr x); left; reflexivity].
  inversion S as [|? ? S' F]; subst. apply in_map_iff in Hy. destruct Hy as (z & <- & [->|Hz]); [cbn; lia|]. rewrite Forall_forall in F. apply F. exact Hz.
Qed.
Theorem timer_armed cfg l t s d c : reaches cfg l t s -> (forall r d, ~ In (Eff (O_queued r (Some d))) t) -> In (d, c) (due t) ->
  exists m, s_timer s = T_at m /\ m <= d /\ exists c', In (m, c') (announced t).
Proof.
  intros H Hn Hd. destruct (reaches_dd _ _ _ _ H) as [Hi D]. destruct (armed_le s (d, c) (k_sort _ _ _ _ D) (k_arm _ _ _ _ D Hn) (k_in _ _ _ _ D _ Hd)) as (m & A & B & c' & C).
  exists m. split; [exact A|]. split; [exact B|]. exists c'. apply (k_out _ _ _ _ D). exact C.
Qed.
Theorem timer_rearmed cfg l t s e d c : reaches cfg l t s -> In (d, c) (due (t ++ [Rcv e I_timeout])) ->
  exists m, s_timer (fst (step cfg e I_timeout s)) = T_at m /\ m <= d /\ exists c', In (m, c') (announced t).
Proof.
  intros H Hd. destruct (reaches_dd _ _ _ _ H) as [Hi D]. destruct (dd_timeout e _ _ _ _ D) as [D1 A1]. unfold dd in D1.
  unfold due in Hd. rewrite fold_left_app in Hd. cbn [fold_left due1] in Hd. fold (due t) in Hd.
  destruct (armed_le _ (d, c) (k_sort _ _ _ _ D1) A1 (k_in _ _ _ _ D1 _ (in_or_app _ _ _ (or_introl Hd)))) as (m & A & B & c' & C).
  exists m. split; [exact A|]. split; [exact B|]. exists c'. apply (k_out _ _ _ _ D1) in C.
  assert (E : ann (snd (timeout e s)) = []).
  { unfold timeout. rewrite then_snd, ann_app. destruct (each_expire_dt (dead_expired (e_now e) (s_dead s)) (with_dead (dead_rest (e_now e) (s_dead s)) s)) as [_ P].
    rewrite (proj1 (ann_plain _ P)). destruct (dead_rest _ _); reflexivity. }
  rewrite E, app_nil_r in C. exact C.
Qed.
