(* The resource managers see legal sequences of XA calls, also around synchronous calls *)
From Coq Require Import ZArith List Bool Lia.
From Verif Require Import CodesModel CtxModel CtxSpec CtxProofs CtxHeld CtxXa CallModel CallSpec CallProofs CallTx.
Import ListNotations.
Local Open Scope Z_scope.
Notation itx c := (CtxSpec.in_tx c).

(* a change that has nothing to do with the resources *)
Definition shape (t : txn) := (t_id t, t_inv t, t_susp t).
Definition alike (c c' : ctx) : Prop := empty_ok c' /\ exists em ts, c' = w_empty em (w_txs ts c) /\ map shape (c_txs c) = map shape ts.
Lemma alike_refl c : empty_ok c -> alike c c.
Proof. intros EO. split; [exact EO|]. exists (c_empty c), (c_txs c). split; [destruct c; reflexivity|reflexivity]. Qed.
Lemma alike_trans a b c : alike a b -> alike b c -> alike a c.
Proof. intros (_ & em1 & ts1 & -> & M1) (EO & em & ts & -> & M). split; [exact EO|]. exists em, ts. split; [destruct a; reflexivity|]. cbn in M. congruence. Qed.
Lemma alike_in_tx c c' : empty_ok c -> alike c c' -> itx c' = itx c.
Proof.
  intros EO (EO' & em & ts' & -> & M). unfold shape in M. destruct (snoc_cases (c_txs c)) as [E|(l&t&E)].
  - assert (E' : ts' = []) by (rewrite E in M; destruct ts'; [reflexivity|discriminate]). subst ts'. rewrite (in_tx_nil _ EO' eq_refl), (in_tx_nil _ EO E). reflexivity.
  - destruct (snoc_cases ts') as [E'|(l'&t'&E')]; [rewrite E, E', map_app in M; destruct (map _ l); discriminate|].
    rewrite E, E', !map_app in M. cbn [map] in M. apply app_inj_tail in M. destruct M as [_ [= TI _ TS]]. destruct (t_susp t) eqn:T.
    + rewrite (in_tx_susp c l t EO E T), (in_tx_susp (w_empty em (w_txs ts' c)) l' t' EO' E'); [reflexivity|congruence].
    + rewrite (in_tx_snoc c l t E T), (in_tx_snoc (w_empty em (w_txs ts' c)) l' t' E'); [congruence|congruence].
Qed.
Lemma alike_quiet l l' : map shape l = map shape l' -> quiet (removelast l) -> quiet (removelast l').
Proof.
  intros ML QL. unfold shape in ML. destruct (snoc_cases l) as [E|(a&t&E)]; destruct (snoc_cases l') as [E'|(a'&t'&E')]; subst l l'.
  - intros u [].
  - rewrite map_app in ML. destruct (map _ a'); discriminate.
  - intros u [].
  - rewrite removelast_snoc in *. rewrite !map_app in ML. apply app_inj_tail in ML. destruct ML as [ML _]. intros u I. apply (in_map (fun t => (t_id t, t_inv t, t_susp t))) in I. rewrite <- ML in I.
    apply in_map_iff in I. destruct I as (v&[= V1 _ V2]&I). rewrite <- V1, <- V2. exact (QL v I).
Qed.
(* k: the transaction the resources are associated with *)
Record XAt (fixed : list Z) (k : Z) (c : ctx) : Prop := mk_xat {
  a_fixed : c_fixed c = fixed; a_dyn : c_dynamic c = []; a_empty : empty_ok c; a_core : core fixed (c_txs c) (A c) (c_next c) k; a_stack : c_ctl c = Stacked \/ quiet (removelast (c_txs c)) }.
Lemma xat_inv fixed c : XInv fixed c <-> XAt fixed (itx c) c.
Proof. split; intros [F D E C Q]; constructor; assumption. Qed.
Lemma alike_xat fixed k c c' : XAt fixed k c -> alike c c' -> XAt fixed k c'.
Proof.
  intros [F D EO C Q] (EO' & em & ts & -> & M). constructor; [exact F|exact D|exact EO'| |].
  - apply (core_same _ (c_txs c)); [exact C|]. apply (f_equal (map (fun p => fst p))) in M. rewrite !map_map in M. exact M.
  - cbn. destruct Q as [Q|Q]; [left; exact Q|right; exact (alike_quiet _ _ M Q)].
Qed.
Lemma set_current_alike c t : empty_ok c -> shape t = shape (current c) -> alike c (set_current t c).
Proof.
  intros EO SH. pose proof EO as [N0 S0]. unfold shape in SH. injection SH as I V S. unfold set_current, current in *. destruct (split_last (c_txs c)) as [[l u]|] eqn:E.
  - destruct (t_susp u) eqn:T.
    + split; [split; cbn; congruence|]. exists t, (c_txs c). split; [destruct c; reflexivity|reflexivity].
    + split; [exact EO|]. exists (c_empty c), (l ++ [t]). split; [destruct c; reflexivity|]. apply split_last_some in E. rewrite E, !map_app. cbn. unfold shape. rewrite I, V, S. reflexivity.
  - split; [split; cbn; congruence|]. exists t, (c_txs c). split; [destruct c; reflexivity|reflexivity].
Qed.
Lemma call_alike e k c : empty_ok c -> alike c (fst (step e (ServiceCall k) c)).
Proof. intros EO. cbn [step]. cbn [fst]. destruct (is_null _); [exact (alike_refl c EO)|]. apply set_current_alike; [exact EO|reflexivity]. Qed.
Lemma update_first_shape k s l : map shape (update_first k s l) = map shape l.
Proof. induction l as [|t l IH]; [reflexivity|]. cbn [update_first]. destruct (mem k (t_pend t)); cbn [map]; [destruct (t_state t <? s); reflexivity|congruence]. Qed.
Lemma reply_alike e k s c : empty_ok c -> alike c (fst (step e (Reply k s) c)).
Proof. intros EO. split; [exact EO|]. exists (c_empty c), (update_first k s (c_txs c)). split; [destruct c; reflexivity|]. symmetry. apply update_first_shape. Qed.
Lemma acall_alike e nt nr l s s' o ev : empty_ok (p_tx s) -> acall e nt nr l s = (s', o, ev) -> alike (p_tx s) (p_tx s').
Proof.
  intros EO. unfold acall. destruct (_ && nr); [intros [= <- _ _]; apply alike_refl, EO|]. destruct l as [send| | |]; try (intros [= <- _ _]; apply alike_refl, EO).
  destruct nr; [destruct send; intros [= <- _ _]; apply alike_refl, EO|]. destruct (reserve _ _ _) as [ds d]. destruct (in_transaction s && negb nt).
  - destruct send; intros [= <- _ _]; exact (call_alike e (p_next s) (p_tx s) EO).
  - destruct send; intros [= <- _ _]; apply alike_refl, EO.
Qed.
Lemma get_alike e d any nb sg s s' o ev : empty_ok (p_tx s) -> get_reply e d any nb sg s = (s', o, ev) -> alike (p_tx s) (p_tx s').
Proof.
  intros EO. unfold get_reply, nothing, complete. destruct any.
  - destruct (p_cache s) as [|[c r] l]; [intros [= <- _ _]; apply alike_refl, EO|]. destruct (get_corr _ _) as [x|]; [|intros [= <- _ _]; apply alike_refl, EO]. intros [= <- _ _]. exact (reply_alike e c (r_state r) (p_tx s) EO).
  - destruct (get d _) as [x|]; [|intros [= <- _ _]; apply alike_refl, EO]. destruct (take _ _) as [[[c r] l]|]; [|intros [= <- _ _]; apply alike_refl, EO]. intros [= <- _ _]. exact (reply_alike e c (r_state r) (p_tx s) EO).
Qed.
Lemma alike_inv fixed c c' : XInv fixed c -> alike c c' -> XInv fixed c'.
Proof. intros X AL. apply xat_inv. rewrite (alike_in_tx _ _ (v_empty _ _ X) AL). apply (alike_xat fixed _ c); [apply xat_inv; exact X|exact AL]. Qed.

(* ---------------------------------------------------------------- around the call *)
Lemma suspend_xat e fixed c : agrees e -> NoDup fixed -> XInv fixed c -> itx c <> 0 -> XAt fixed 0 (fst (sync_suspend e c)) /\ snd (sync_suspend e c) = true /\ itx (fst (sync_suspend e c)) = itx c.
Proof.
  intros G ND X N. destruct X as [F D EO C Q]. destruct (in_tx_dec c EO) as [Z0|(l&E&S&IT&NN)]; [contradiction|]. assert (I : In (current c) (c_txs c)) by (rewrite E; apply in_app_iff; right; left; reflexivity).
  destruct (k_ids _ _ _ _ _ C (current c) I NN) as (_&TI&_). unfold sync_suspend. set (c0 := match t_inv (current c) with [] => c | _ => _ end).
  assert (G0 : exists ev0, c0 = grow ev0 c /\ forall r x, A c0 r x = A c r x) by (unfold c0; destruct (t_inv (current c)); [exists []; split; [rewrite grow_nil; reflexivity|reflexivity]|eexists; split; [reflexivity|intros r x; apply A_other; discriminate]]).
  destruct G0 as (ev0 & EC & A0). destruct (end_all e EndSuspend (current c) c0) as [c1 code] eqn:EA. pose proof (end_all_grow _ _ _ _ _ _ EA) as (evs & G1 & _).
  apply (end_all_moves e EndSuspend (current c) c0 c1 code fixed G ND) in EA; [|rewrite EC; exact (all_fixed fixed c F D)|exact TI]. destruct EA as [-> U]. cbn [fst snd tx_eqb]. subst c1. rewrite EC in *.
  split; [|split; reflexivity]. constructor; [exact F|exact D|exact EO| |exact Q]. apply (core_suspend fixed _ (A c) _ (current c)); [rewrite IT in C; exact C|exact I|exact NN|].
  intros r y. rewrite U, A0. reflexivity.
Qed.
Lemma resume_xinv e fixed c : agrees e -> NoDup fixed -> XAt fixed 0 c -> itx c <> 0 -> XInv fixed (sync_resume e c).
Proof.
  intros G ND [F D EO C Q] N. destruct (in_tx_dec c EO) as [Z0|(l&E&S&IT&NN)]; [contradiction|]. assert (I : In (current c) (c_txs c)) by (rewrite E; apply in_app_iff; right; left; reflexivity).
  destruct (k_ids _ _ _ _ _ C (current c) I NN) as (_&TI&_). unfold sync_resume. rewrite F. destruct (start_these e StartResume (current c) fixed c) as [[c1 t1] k1] eqn:ST. pose proof (start_these_grow _ _ _ _ _ _ _ _ ST) as [(evs&G1&_) _].
  assert (IV : involve fixed (current c) = current c) by (apply involve_same; rewrite TI; apply incl_refl).
  apply (start_these_moves e StartResume (current c) c c1 t1 k1 fixed G ND) in ST; [|rewrite IV; exact TI]. destruct ST as (->&->&U). rewrite IV. subst c1.
  assert (SC : set_current (current c) (grow evs c) = grow evs c). { rewrite (set_current_real (grow evs c) _ l (current c) E S). rewrite <- E. destruct c; reflexivity. }
  rewrite SC. constructor; [exact F|exact D|exact EO|..|exact Q]. change (itx (grow evs c)) with (itx c). rewrite IT. exact (core_resume _ _ _ _ _ _ C I NN U).
Qed.
Lemma in_transaction_itx s : in_transaction s = negb (itx (p_tx s) =? 0).
Proof. unfold in_transaction. rewrite in_tx_eq. reflexivity. Qed.
Lemma arrivals_same l : forall s, p_tx (fold_left (fun s x => arrive (fst x) (snd x) s) l s) = p_tx s.
Proof. induction l as [|x l IH]; intros s; [reflexivity|]. cbn [fold_left]. rewrite IH. unfold arrive. destruct (mem _ _); reflexivity. Qed.
Lemma tpcall_xinv e fixed nt l arr s s' o ev : agrees e -> NoDup fixed -> XInv fixed (p_tx s) -> tpcall e nt l arr s = (s', o, ev) -> XInv fixed (p_tx s').
Proof.
  intros G ND X. unfold tpcall. destruct (in_transaction s && negb nt) eqn:SU.
  - assert (N : itx (p_tx s) <> 0). { apply andb_true_iff in SU. destruct SU as (SU & _). rewrite in_transaction_itx in SU. apply negb_true_iff, Z.eqb_neq in SU. exact SU. }
    destruct (suspend_xat e fixed (p_tx s) G ND X N) as (X1 & OK & I1). destruct (sync_suspend e (p_tx s)) as [t1 ok]. cbn [fst snd] in *. subst ok.
    destruct (acall e nt false l (w_tx t1 s)) as [[s2 o2] ev2] eqn:AC. assert (E1 : empty_ok (p_tx (w_tx t1 s))) by exact (a_empty _ _ _ X1). pose proof (acall_alike _ _ _ _ _ _ _ _ E1 AC) as AL2. change (p_tx (w_tx t1 s)) with t1 in *.
    assert (LAST : forall s3, alike t1 (p_tx s3) -> XInv fixed (p_tx (w_tx (sync_resume e (p_tx s3)) s3))).
    { intros s3 AL3. cbn [p_tx w_tx]. apply (resume_xinv e fixed (p_tx s3) G ND (alike_xat _ _ _ _ X1 AL3)). rewrite (alike_in_tx _ _ E1 AL3), I1. exact N. }
    destruct o2 as [d|d r|d r|k| | |r]; try (intros [= <- _ _]; exact (LAST s2 AL2)).
    destruct (get_reply e d false false true _) as [[s4 o4] ev4] eqn:GE. intros [= <- _ _]. apply LAST. apply (alike_trans _ (p_tx s2)); [exact AL2|].
    assert (EA : empty_ok (p_tx (fold_left (fun s x => arrive (fst x) (snd x) s) arr s2))) by (rewrite arrivals_same; exact (proj1 AL2)). apply (get_alike _ _ _ _ _ _ _ _ _ EA) in GE. rewrite arrivals_same in GE. exact GE.
  - destruct (acall e nt false l (w_tx (p_tx s) s)) as [[s2 o2] ev2] eqn:AC. pose proof (v_empty _ _ X) as E1. pose proof (acall_alike _ _ _ _ _ _ _ _ (E1 : empty_ok (p_tx (w_tx (p_tx s) s))) AC) as AL2. change (p_tx (w_tx (p_tx s) s)) with (p_tx s) in *.
    destruct o2 as [d|d r|d r|k| | |r]; try (intros [= <- _ _]; exact (alike_inv _ _ _ X AL2)).
    destruct (get_reply e d false false true _) as [[s4 o4] ev4] eqn:GE. intros [= <- _ _]. apply (alike_inv fixed (p_tx s) (p_tx s4) X). apply (alike_trans _ (p_tx s2)); [exact AL2|].
    assert (EA : empty_ok (p_tx (fold_left (fun s x => arrive (fst x) (snd x) s) arr s2))) by (rewrite arrivals_same; exact (proj1 AL2)). apply (get_alike _ _ _ _ _ _ _ _ _ EA) in GE. rewrite arrivals_same in GE. exact GE.
Qed.
Lemma xstep_xinv e fixed i s s' o ev : rms_agree e -> NoDup fixed -> XInv fixed (p_tx s) -> input_in_order i s -> xstep e i s = (s', o, ev) -> XInv fixed (p_tx s').
Proof.
  intros G ND X AL. pose proof (v_empty _ _ X) as EO. destruct i as [nt nr l|d any nb sg|d|nt l arr|c r|i]; cbn [xstep].
  - intros H. exact (alike_inv _ _ _ X (acall_alike _ _ _ _ _ _ _ _ EO H)).
  - unfold getrply. destruct (get_reply _ _ _ _ _ _) as [[s1 o1] ev1] eqn:GE. intros [= <- _ _]. exact (alike_inv _ _ _ X (get_alike _ _ _ _ _ _ _ _ _ EO GE)).
  - unfold cancel. destruct (get d _) as [x|]; [|intros [= <- _ _]; exact X]. destruct (associated _ _); [intros [= <- _ _]; exact X|]. intros [= <- _ _]. cbn. rewrite (proj1 (discard_same _ _)). exact X.
  - exact (tpcall_xinv e fixed nt l arr s s' o ev G ND X).
  - intros [= <- _ _]. unfold arrive. destruct (mem _ _); exact X.
  - cbn in AL. assert (GG : forall j, in_order j (p_tx s) -> XInv fixed (fst (step e j (p_tx s)))) by (intros j J; exact (step_xinv e fixed (p_tx s) j G ND X J)).
    pose proof (GG i AL) as S1. destruct i; cbn in AL; try contradiction; try (intros [= <- _ _]; exact X);
      try (match type of S1 with context [step e ?j (p_tx s)] => destruct (step e j (p_tx s)) as [t0 r0] end; intros [= <- _ _]; exact S1).
    destruct (discards_same (pending_of (p_tx s)) s) as (T & _). rewrite T. destruct (step e (Finalize do_commit) (p_tx s)) as [t0 r0]. intros [= <- _ _]. exact S1.
Qed.
Lemma xrun_xinv e fixed is : rms_agree e -> NoDup fixed -> forall s s' h, XInv fixed (p_tx s) -> inputs_in_order e is s -> xrun e is s = (s', h) -> XInv fixed (p_tx s').
Proof.
  intros G ND. induction is as [|i is IH]; intros s s' h X AL; cbn [xrun]; [intros [= <- _]; exact X|]. cbn [inputs_in_order] in AL. destruct AL as [A1 AL]. destruct (xstep e i s) as [[s1 o] ev] eqn:XS. destruct (xrun e is s1) as [s2 h2] eqn:R. intros [= <- _].
  exact (IH s1 s2 h2 (xstep_xinv _ _ _ _ _ _ _ G ND X A1 XS) AL R).
Qed.
Lemma xinv_means fixed c r x : XInv fixed c -> let s := assoc_of r x (c_log c) in
  s <> Illegal /\ (s = Associated -> x = itx c /\ x <> 0) /\ (s = AssociationSuspended -> In x (held c) /\ x <> 0 /\ x <> itx c) /\ (In r fixed -> x <> 0 -> In x (held c) -> s = if x =? itx c then Associated else AssociationSuspended).
Proof.
  intros [F D EO C Q]. cbn zeta. change (assoc_of r x (c_log c)) with (A c r x).
  destruct (in_dec Z.eq_dec r fixed) as [Ir|Or]; [|rewrite (k_out _ _ _ _ _ C r x Or); repeat split; congruence].
  destruct (Z.eq_dec x 0) as [->|N].
  - destruct (k_free _ _ _ _ _ C 0 r (or_intror eq_refl) Ir) as [-> |[-> | ->]]; repeat split; congruence.
  - destruct (in_dec Z.eq_dec x (held c)) as [I|O].
    + pose proof I as I'. unfold held in I'. apply in_map_iff in I'. destruct I' as (t&E&It). subst x. rewrite (k_held _ _ _ _ _ C t r It N Ir). destruct (idt t =? itx c) eqn:K.
      * apply Z.eqb_eq in K. repeat split; try congruence.
      * apply Z.eqb_neq in K. repeat split; congruence.
    + destruct (k_free _ _ _ _ _ C x r (or_introl O) Ir) as [-> |[-> | ->]]; repeat split; try congruence; contradiction.
Qed.
Lemma call_legal e fixed m is s h : rms_agree e -> NoDup fixed -> let s0 := w_tx (w_ctl m (init [] fixed)) (CallModel.start [] fixed) in inputs_in_order e is s0 -> xrun e is s0 = (s, h) ->
  forall r x, let c := p_tx s in let a := assoc_of r x (c_log c) in
  a <> Illegal /\ (a = Associated -> x = itx c /\ x <> 0) /\ (a = AssociationSuspended -> In x (held c) /\ x <> 0 /\ x <> itx c) /\ (In r fixed -> x <> 0 -> In x (held c) -> a = if x =? itx c then Associated else AssociationSuspended).
Proof.
  intros G ND s0 AL R r x. apply xinv_means. apply (xrun_xinv e fixed is G ND s0 s h); [|exact AL|exact R]. constructor; [reflexivity|reflexivity|split; reflexivity| |right; intros u []]. change (itx (p_tx s0)) with 0. apply core_init.
Qed.
(* when another process works on the call, no resource of this process is associated with its transaction *)
Lemma start_xinv fixed m : XInv fixed (w_ctl m (init [] fixed)).
Proof. constructor; [reflexivity|reflexivity|split; reflexivity| |right; intros u []]. change (itx (w_ctl m (init [] fixed))) with 0. apply core_init. Qed.
Lemma xat_none fixed c r x : XAt fixed 0 c -> assoc_of r x (c_log c) <> Associated.
Proof.
  intros [F D EO C Q]. change (assoc_of r x (c_log c)) with (A c r x).
  destruct (in_dec Z.eq_dec r fixed) as [Ir|Or]; [|rewrite (k_out _ _ _ _ _ C r x Or); discriminate].
  destruct (Z.eq_dec x 0) as [->|NX]; [destruct (k_free _ _ _ _ _ C 0 r (or_intror eq_refl) Ir) as [-> |[-> | ->]]; discriminate|].
  destruct (in_dec Z.eq_dec x (held c)) as [I|O]; [|destruct (k_free _ _ _ _ _ C x r (or_introl O) Ir) as [-> |[-> | ->]]; discriminate].
  unfold held in I. apply in_map_iff in I. destruct I as (t&E&It). subst x. rewrite (k_held _ _ _ _ _ C t r It NX Ir). rewrite (proj2 (Z.eqb_neq _ _) NX). discriminate.
Qed.
Lemma alike_log c c' : alike c c' -> c_log c' = c_log c.
Proof. intros (_ & em & ts & -> & _). reflexivity. Qed.
Lemma set_current_log t c : c_log (set_current t c) = c_log c.
Proof. unfold set_current. destruct (split_last _) as [[l u]|]; [destruct (t_susp u)|]; reflexivity. Qed.
Lemma suspend_log e c : exists a, c_log (fst (sync_suspend e c)) = c_log c ++ a /\ Forall (fun v => (exists r k, v = CtxModel.Xa EndSuspend r (x_id (t_id (current c))) k) \/ exists l, v = TmTold (x_id (t_id (current c))) l) a.
Proof.
  unfold sync_suspend. set (c0 := match t_inv (current c) with [] => c | _ => _ end). destruct (end_all e EndSuspend (current c) c0) as [c1 code] eqn:EA. apply end_all_grow in EA. destruct EA as (evs & -> & X). cbn [fst].
  assert (G0 : exists ev0, c_log c0 = c_log c ++ ev0 /\ forall v, In v ev0 -> exists l, v = TmTold (x_id (t_id (current c))) l).
  { unfold c0. destruct (t_inv (current c)) as [|z l]; [exists []; rewrite app_nil_r; split; [reflexivity|intros v []]|]. exists [TmTold (x_id (t_id (current c))) (z :: l)]. split; [reflexivity|]. intros v [<-|[]]. eexists. reflexivity. }
  destruct G0 as (ev0 & E0 & P0). exists (ev0 ++ evs). cbn [grow c_log]. rewrite E0, app_assoc. split; [reflexivity|]. apply Forall_app. split.
  - apply Forall_forall. intros v I. right. exact (P0 v I).
  - eapply Forall_impl; [|exact X]. intros v V. left. exact V.
Qed.
Lemma tpcall_suspends e fixed m is s h : rms_agree e -> NoDup fixed -> let s0 := w_tx (w_ctl m (init [] fixed)) (CallModel.start [] fixed) in inputs_in_order e is s0 -> xrun e is s0 = (s, h) ->
  forall l arr s' o ev, itx (p_tx s) <> 0 -> xstep e (Tpcall false l arr) s = (s', o, ev) ->
  exists a b, c_log (p_tx s') = c_log (p_tx s) ++ a ++ b /\ (forall r x, assoc_of r x (c_log (p_tx s) ++ a) <> Associated) /\
  Forall (fun v => (exists r k, v = CtxModel.Xa EndSuspend r (itx (p_tx s)) k) \/ exists l, v = TmTold (itx (p_tx s)) l) a /\ Forall (fun v => exists r k, v = CtxModel.Xa StartResume r (itx (p_tx s)) k) b.
Proof.
  intros G ND s0 AL R l arr s' o ev N XS. assert (X : XInv fixed (p_tx s)) by exact (xrun_xinv e fixed is G ND s0 s h (start_xinv fixed m) AL R).
  cbn [xstep] in XS. unfold tpcall in XS. assert (SU : in_transaction s && negb false = true) by (rewrite in_transaction_itx, (proj2 (Z.eqb_neq _ _) N); reflexivity). rewrite SU in XS.
  destruct (suspend_xat e fixed (p_tx s) G ND X N) as (X1 & OK & I1). destruct (suspend_log e (p_tx s)) as (a & LA & FA). rewrite <- in_tx_eq in FA.
  destruct (sync_suspend e (p_tx s)) as [t1 ok]. cbn [fst snd] in *. subst ok.
  destruct (acall e false false l (w_tx t1 s)) as [[s2 o2] ev2] eqn:AC. assert (E1 : empty_ok (p_tx (w_tx t1 s))) by exact (a_empty _ _ _ X1). pose proof (acall_alike _ _ _ _ _ _ _ _ E1 AC) as AL2. change (p_tx (w_tx t1 s)) with t1 in *.
  assert (LAST : forall s3, alike t1 (p_tx s3) -> exists b, c_log (sync_resume e (p_tx s3)) = c_log t1 ++ b /\ Forall (fun v => exists r k, v = CtxModel.Xa StartResume r (itx (p_tx s)) k) b).
  { intros s3 AL3. pose proof (alike_in_tx _ _ E1 AL3) as I3. rewrite I1 in I3. unfold sync_resume. destruct (start_these e StartResume (current (p_tx s3)) (c_fixed (p_tx s3)) (p_tx s3)) as [[c1 u] k1] eqn:ST. apply start_these_grow in ST. destruct ST as [(evs & -> & F) _].
    exists evs. rewrite set_current_log. cbn [grow c_log]. rewrite (alike_log _ _ AL3). split; [reflexivity|]. eapply Forall_impl; [|exact F]. intros v V. rewrite <- I3, in_tx_eq. exact V. }
  assert (DONE : forall s3, alike t1 (p_tx s3) -> s' = w_tx (sync_resume e (p_tx s3)) s3 -> exists a b, c_log (p_tx s') = c_log (p_tx s) ++ a ++ b /\ (forall r x, assoc_of r x (c_log (p_tx s) ++ a) <> Associated) /\
    Forall (fun v => (exists r k, v = CtxModel.Xa EndSuspend r (itx (p_tx s)) k) \/ exists l, v = TmTold (itx (p_tx s)) l) a /\ Forall (fun v => exists r k, v = CtxModel.Xa StartResume r (itx (p_tx s)) k) b).
  { intros s3 AL3 ->. destruct (LAST s3 AL3) as (b & LB & FB). exists a, b. cbn [p_tx w_tx]. rewrite LB, LA, <- app_assoc. split; [reflexivity|]. split; [|split; [exact FA|exact FB]]. intros r x. rewrite <- LA. exact (xat_none _ _ _ _ X1). }
  destruct o2 as [d|d r|d r|k| | |r]; try (injection XS as <- _ _; exact (DONE s2 AL2 eq_refl)).
  destruct (get_reply e d false false true _) as [[s4 o4] ev4] eqn:GE. injection XS as <- _ _. apply (DONE s4); [|reflexivity]. apply (alike_trans _ (p_tx s2)); [exact AL2|].
  assert (EA : empty_ok (p_tx (fold_left (fun s x => arrive (fst x) (snd x) s) arr s2))) by (rewrite arrivals_same; exact (proj1 AL2)). apply (get_alike _ _ _ _ _ _ _ _ _ EA) in GE. rewrite arrivals_same in GE. exact GE.
Qed.
