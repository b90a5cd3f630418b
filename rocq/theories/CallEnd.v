From Coq Require Import ZArith List Bool Lia Sorting.Sorted.
From Verif Require Import CodesModel CtxModel CallModel CallSpec CallProofs CallMore CallMain.
Import ListNotations.
Local Open Scope Z_scope.

Lemma getrply_told e o v d any nb sg s s' out ev : inv o v s -> getrply e d any nb sg s = (s', out, ev) -> plain out = out.
Proof.
  intros I H. rewrite getrply_plain in H. destruct (get_reply e d any nb sg s) as [[s1 o1] ev1]. injection H as _ <- _. destruct o1 as [| | |k| | |]; try reflexivity. cbn. destruct (Z.eqb_spec k TPENOENT); [reflexivity|]. destruct (Z.eqb_spec k TPENOENT); [contradiction|reflexivity].
Qed.
Lemma told_reply d d' r r' out : told d r out -> (out = O_reply d' r' \/ out = O_fail d' r') -> d' = d /\ r' = r.
Proof. unfold told. intros -> H. destruct (r_code r =? 0); [destruct H as [H | H]; [injection H as -> ->; auto|discriminate]|]. destruct (r_code r =? TPESVCFAIL); [destruct H as [H | H]; [discriminate|injection H as -> ->; auto]|]. destruct H as [H | H]; discriminate. Qed.

Section Reached.
  Variables (e : env) (dyn fix0 : list Z) (is : list input) (s : proc) (h : list entry).
  Hypothesis R : xrun e is (CallModel.start dyn fix0) = (s, h).
  Let I := reach_inv e dyn fix0 is s h R.
  Let HI := reach_hist e dyn fix0 is s h R.

  Lemma descriptors : NoDup (map fst (outstanding h)) /\ forall d d' c, In (d, c) (outstanding h) -> In (d', c) (outstanding h) -> d = d'.
  Proof. split; [exact (i_nodup _ _ _ I)|]. intros d d' c. exact (out_distinct _ _ _ d d' c I). Qed.

  Lemma tpacall_fresh nt nr l s' d ev : xstep e (Tpacall nt nr l) s = (s', O_descriptor d, ev) ->
    (exists c x, ev = [Lookup c; Request c d x] /\ forall d' x', ~ In (Request c d' x') (events h)) /\ if nr then d = 0 else 0 < d /\ ~ In d (map fst (outstanding h)).
  Proof.
    intros H. cbn in H. destruct (acall_fresh _ _ _ _ _ _ _ _ _ _ I H) as (x & E & F). split; [|exact F]. exists (p_next s), x. split; [exact E|]. intros d' x' J. pose proof (h_req _ _ _ HI _ _ _ J). lia.
  Qed.

  Lemma getrply_matches d any nb sg s' out ev d' r : xstep e (Tpgetrply d any nb sg) s = (s', out, ev) -> (out = O_reply d' r \/ out = O_fail d' r) ->
    exists c, ev = [Took c r] /\ In (d', c) (outstanding h) /\ In (Arrived c r) (events h) /\ (any = false -> d' = d) /\ told d' r out.
  Proof.
    intros H O. cbn [xstep] in H. pose proof (getrply_told _ _ _ _ _ _ _ _ _ _ _ I H) as P. pose proof (getrply_inv _ _ _ _ _ _ _ _ _ _ _ I H) as I2.
    apply (getrply_outcome _ _ _ _ _ _ _ _ _ _ _ I) in H. destruct H as [_ _ _ -> _ | _ _ NY _ | c r0 l _ _ _ _ -> _ | d0 c r0 q l A J C T -> _].
    - destruct O; discriminate.
    - unfold no_reply_yet in NY. subst. destruct nb; [destruct O; discriminate|]. destruct sg; destruct O; discriminate.
    - destruct O; discriminate.
    - rewrite P in T. destruct (told_reply _ _ _ _ _ T O) as (-> & ->). exists c. split; [reflexivity|]. split; [exact J|].
      assert (AR : In (Arrived c r0) (events h)).
      { assert (Y : In (Arrived c r0) (events h ++ [Took c r0])) by (apply (inv_taken_arrived _ _ _ c r0 I2); apply in_app_iff; right; left; reflexivity). apply in_app_iff in Y. destruct Y as [Y | [Y | []]]; [exact Y|discriminate]. }
      split; [exact AR|]. split; [|exact T]. intros ->. exact A.
  Qed.

  Lemma getrply_bad d nb sg : ~ In d (map fst (outstanding h)) -> xstep e (Tpgetrply d false nb sg) s = (s, O_error TPEBADDESC, []).
  Proof. intros N. cbn [xstep]. unfold getrply, get_reply. apply (get_none _ _ _ _ I) in N. rewrite N. reflexivity. Qed.
  Lemma cancel_bad d : ~ In d (map fst (outstanding h)) -> xstep e (Tpcancel d) s = (s, O_error TPEBADDESC, []).
  Proof. intros N. cbn [xstep]. unfold cancel. apply (get_none _ _ _ _ I) in N. rewrite N. reflexivity. Qed.

  Lemma getrply_waiting d c r rest nb sg s' out ev : In (d, c) (outstanding h) -> ~ In (Discarded c) (events h) -> arrived c (events h) = taken c (events h) ++ r :: rest ->
    xstep e (Tpgetrply d false nb sg) s = (s', out, ev) -> told d r out /\ ev = [Took c r].
  Proof.
    intros J ND A H. cbn [xstep] in H. pose proof (getrply_told _ _ _ _ _ _ _ _ _ _ _ I H) as P. apply (getrply_outcome _ _ _ _ _ _ _ _ _ _ _ I) in H.
    destruct (i_device _ _ _ I c) as (_ & D). destruct (D ND) as (_ & E). rewrite A in E. apply app_inv_head in E.
    destruct H as [_ N _ _ _ | (c1 & J1 & E1) _ _ _ | c0 r0 l X _ _ _ _ _ | d0 c0 r0 q l A0 J0 C0 T -> _].
    - exfalso. apply N. apply in_map_iff. exists (d, c). auto.
    - assert (c1 = c) by (apply (proj1 (out_get _ _ _ _ _ I)) in J; apply (proj1 (out_get _ _ _ _ _ I)) in J1; congruence). subst. congruence.
    - discriminate.
    - subst d0. assert (c0 = c) by (apply (proj1 (out_get _ _ _ _ _ I)) in J; apply (proj1 (out_get _ _ _ _ _ I)) in J0; congruence). subst. rewrite E in C0. injection C0 as <- _. rewrite P in T. auto.
  Qed.
  Lemma getrply_none d c nb sg s' out ev : In (d, c) (outstanding h) -> ~ In (Discarded c) (events h) -> arrived c (events h) = taken c (events h) ->
    xstep e (Tpgetrply d false nb sg) s = (s', out, ev) -> s' = s /\ no_reply_yet nb sg out /\ ev = [].
  Proof.
    intros J ND A H. cbn [xstep] in H. apply (getrply_outcome _ _ _ _ _ _ _ _ _ _ _ I) in H.
    destruct (i_device _ _ _ I c) as (_ & D). destruct (D ND) as (_ & E). rewrite A in E. rewrite <- (app_nil_r (taken c (events h))) in E at 2. apply app_inv_head in E.
    destruct H as [_ N _ _ _ | _ -> NY -> | c0 r0 l X _ _ _ _ _ | d0 c0 r0 q l A0 J0 C0 T -> _].
    - exfalso. apply N. apply in_map_iff. exists (d, c). auto.
    - auto.
    - discriminate.
    - subst d0. assert (c0 = c) by (apply (proj1 (out_get _ _ _ _ _ I)) in J; apply (proj1 (out_get _ _ _ _ _ I)) in J0; congruence). subst. congruence.
  Qed.

  (* what the device holds is what waits *)
  Lemma cache_waiting c r : single (events h) -> In (c, r) (p_cache s) <-> waiting c r (events h).
  Proof.
    intros SI. destruct (i_device _ _ _ I c) as (S0 & D). unfold waiting. split.
    - intros J. apply cached_in in J. assert (ND : ~ In (Discarded c) (events h)) by (intros X; destruct (h_gone _ _ _ HI c SI X) as (E & _); rewrite E in J; destruct J).
      destruct (D ND) as (_ & E). specialize (SI c). split; [apply arrived_in; rewrite <- E; apply in_app_iff; right; exact J|]. split; [|exact ND].
      rewrite <- E, app_length in SI. destruct (taken c (events h)); [reflexivity|]. destruct (cached c s); [destruct J|cbn in SI; lia].
    - intros (A & T & ND). destruct (D ND) as (_ & E). rewrite T in E. cbn in E. apply cached_in. rewrite E. apply arrived_in. exact A.
  Qed.
  Lemma waiting_outstanding c r : single (events h) -> causal (events h) -> waiting c r (events h) -> exists d, In (d, c) (outstanding h).
  Proof.
    intros SI C (A & T & ND). destruct (causal_request _ _ _ C A) as (d & x & N & J). destruct (h_fate _ _ _ HI c d x J N) as [H | [H | H]]; [eauto|contradiction|contradiction].
  Qed.
  Lemma getany d nb sg s' out ev : single (events h) -> causal (events h) -> xstep e (Tpgetrply d true nb sg) s = (s', out, ev) ->
    (exists d' c r, In (d', c) (outstanding h) /\ waiting c r (events h) /\ told d' r out /\ ev = [Took c r]) \/
    ((forall c r, ~ waiting c r (events h)) /\ s' = s /\ no_reply_yet nb sg out /\ ev = []).
  Proof.
    intros SI C H. cbn [xstep] in H. pose proof (getrply_told _ _ _ _ _ _ _ _ _ _ _ I H) as P. apply (getrply_outcome _ _ _ _ _ _ _ _ _ _ _ I) in H.
    destruct H as [X _ _ _ _ | EC -> NY -> | c0 r0 l _ EC NO _ _ _ | d0 c0 r0 q l A0 J0 C0 T -> _].
    - discriminate.
    - right. split; [|auto]. intros c r W. apply (cache_waiting c r SI) in W. rewrite EC in W. destruct W.
    - exfalso. assert (W : waiting c0 r0 (events h)) by (apply (cache_waiting c0 r0 SI); rewrite EC; left; reflexivity). destruct (waiting_outstanding _ _ SI C W) as (d' & J). exact (NO d' J).
    - left. exists d0, c0, r0. split; [exact J0|]. split; [apply (cache_waiting c0 r0 SI); rewrite A0; left; reflexivity|]. rewrite P in T. auto.
  Qed.

  (* -------------------------------------------------------------- C60 *)
  Lemma cancel_result d c : In (d, c) (outstanding h) ->
    ((exists t, In t (c_txs (p_tx s)) /\ t_state t = active /\ In c (t_pend t)) -> xstep e (Tpcancel d) s = (s, O_error TPETRAN, [])) /\
    ((forall t, In t (c_txs (p_tx s)) -> t_state t = active -> ~ In c (t_pend t)) -> exists s', xstep e (Tpcancel d) s = (s', O_done, [Discarded c])).
  Proof.
    intros J. apply (proj1 (out_get _ _ _ _ _ I)) in J. cbn [xstep]. unfold cancel. rewrite J. cbn [d_corr]. split.
    - intros (t & It & A & P). assert (E : associated c (p_tx s) = true) by (unfold associated; apply existsb_exists; exists t; split; [exact It|]; rewrite A; cbn; apply mem_spec; exact P). rewrite E. reflexivity.
    - intros N. assert (E : associated c (p_tx s) = false).
      { destruct (associated c (p_tx s)) eqn:E; [|reflexivity]. exfalso. unfold associated in E. apply existsb_exists in E. destruct E as (t & It & E). apply andb_prop in E. destruct E as (A & P). apply Z.eqb_eq in A. apply mem_spec in P. exact (N t It A P). }
      rewrite E. eauto.
  Qed.
  Lemma cancelled_silent d c s1 ev is2 s2 h2 : In (d, c) (outstanding h) -> xstep e (Tpcancel d) s = (s1, O_done, ev) -> xrun e is2 s1 = (s2, h2) ->
    single (events h ++ ev ++ events h2) -> forall r, ~ In (Took c r) (events h2).
  Proof.
    intros J H R2 SI r T. assert (E : ev = [Discarded c]).
    { apply (proj1 (out_get _ _ _ _ _ I)) in J. cbn [xstep] in H. unfold cancel in H. rewrite J in H. cbn [d_corr] in H. destruct (associated c (p_tx s)); [discriminate|]. injection H as _ <-. reflexivity. }
    pose proof (step_inv _ _ _ _ _ _ _ _ I H) as I1. pose proof (hist_step _ _ _ _ _ _ _ _ I HI H) as H1. pose proof (run_hist _ _ _ _ _ _ _ I1 H1 R2) as HH.
    rewrite <- app_assoc in HH. subst ev. assert (Z0 := h_after _ _ _ HH c (events h) (events h2) SI eq_refl). apply taken_in in T. rewrite Z0 in T. destruct T.
  Qed.
  Lemma acall_failed nt nr l s' k ev : xstep e (Tpacall nt nr l) s = (s', O_error k, ev) -> outstanding (h ++ [(Tpacall nt nr l, O_error k, ev)]) = outstanding h.
  Proof.
    intros H. cbn [xstep] in H. apply acall_events in H. destruct H as ([-> | [-> | (d & x & -> & E)]] & _); [| |discriminate]; rewrite outstanding_snoc; reflexivity.
  Qed.
  Lemma tpcall_clean nt l arr s' out ev : xstep e (Tpcall nt l arr) s = (s', out, ev) -> out <> O_error TPGOTSIG -> outstanding (h ++ [(Tpcall nt l arr, out, ev)]) = outstanding h.
  Proof.
    intros H N. cbn [xstep] in H. rewrite outstanding_snoc. cbn [after_entry]. apply tpcall_split in H. destruct H as [(-> & _) | [(t1 & s2 & ev2 & AC & D & ->) | (t1 & s2 & d & ev2 & s4 & ev4 & AC & G & ->)]].
    - reflexivity.
    - apply acall_events in AC. destruct AC as ([-> | [-> | (d & x & -> & E)]] & _); [reflexivity|reflexivity|destruct (D d E)].
    - pose proof (acall_inv _ _ _ _ _ _ _ _ _ _ (inv_tx _ _ _ t1 I) AC) as I2. destruct (acall_fresh _ _ _ _ _ _ _ _ _ _ (inv_tx _ _ _ t1 I) AC) as (x & E2 & (Pd & Fd)). cbn [p_next w_tx] in E2.
      pose proof (arrivals_inv _ arr _ _ I2) as I3. apply (get_reply_outcome _ _ _ _ _ _ _ _ _ _ _ I3) in G. rewrite !fold_events_app, arrivals_quiet. subst ev2. cbn [fold_left after_event] in *. destruct (Z.eqb_spec d 0); [lia|].
      destruct G as [_ ND _ _ _ | _ _ NY _ | c0 r0 l0 X _ _ _ _ _ | d0 c0 r0 q l0 -> J0 C0 T -> _].
      + exfalso. apply ND. rewrite map_app. apply in_app_iff. right. left. reflexivity.
      + destruct (N NY).
      + discriminate.
      + apply in_app_iff in J0. destruct J0 as [J0 | [J0 | []]]; [exfalso; apply Fd; apply in_map_iff; exists (d, c0); auto|]. injection J0 as <-. cbn [fold_left after_event]. rewrite filter_app. cbn [filter snd]. rewrite Z.eqb_refl. cbn [negb]. rewrite app_nil_r.
        apply filter_all. intros [d1 c1] J1. cbn. apply negb_true_iff, Z.eqb_neq. apply (i_reflects _ _ _ I) in J1. pose proof (i_corrs _ _ _ I _ J1) as (B & _). cbn in B. lia.
  Qed.
  Lemma tpcall_reply nt l arr s' out ev d r : xstep e (Tpcall nt l arr) s = (s', out, ev) -> (out = O_reply d r \/ out = O_fail d r) ->
    exists c x, ev = Lookup c :: Request c d x :: map (fun x => Arrived (fst x) (snd x)) arr ++ [Took c r] /\ forall d' x', ~ In (Request c d' x') (events h).
  Proof.
    intros H O. cbn [xstep] in H. apply tpcall_split in H. destruct H as [(-> & ->) | [(t1 & s2 & ev2 & AC & D & ->) | (t1 & s2 & d1 & ev2 & s4 & ev4 & AC & G & ->)]].
    - destruct O; discriminate.
    - apply acall_events in AC. destruct AC as (_ & AC). destruct (AC D) as (k & -> & _). destruct O; discriminate.
    - pose proof (acall_inv _ _ _ _ _ _ _ _ _ _ (inv_tx _ _ _ t1 I) AC) as I2. destruct (acall_fresh _ _ _ _ _ _ _ _ _ _ (inv_tx _ _ _ t1 I) AC) as (x & E2 & (Pd & Fd)). cbn [p_next w_tx] in E2.
      pose proof (arrivals_inv _ arr _ _ I2) as I3. apply (get_reply_outcome _ _ _ _ _ _ _ _ _ _ _ I3) in G.
      destruct G as [_ ND _ -> _ | _ _ NY _ | c0 r0 l0 X _ _ _ _ _ | d0 c0 r0 q l0 -> J0 C0 T -> _].
      + destruct O; discriminate.
      + unfold no_reply_yet in NY. subst. destruct O; discriminate.
      + discriminate.
      + subst ev2. cbn [fold_left after_event] in J0. destruct (Z.eqb_spec d1 0); [lia|]. apply in_app_iff in J0. destruct J0 as [J0 | [J0 | []]]; [exfalso; apply Fd; apply in_map_iff; exists (d1, c0); auto|]. injection J0 as <-.
        assert (P : plain out = out) by (destruct O as [-> | ->]; reflexivity). rewrite P in T. destruct (told_reply _ _ _ _ _ T O) as (-> & ->). exists (p_next s), x. split; [reflexivity|].
        intros d' x' J. pose proof (h_req _ _ _ HI _ _ _ J). lia.
  Qed.
End Reached.

(* ---------------------------------------------------------------- C61 *)
Lemma outstanding_origin_events ev : forall o d c, In (d, c) (fold_left after_event ev o) -> In (d, c) o \/ exists x, In (Request c d x) ev.
Proof.
  induction ev as [|v ev IH]; intros o d c J; [auto|]. cbn [fold_left] in J. destruct (IH _ _ _ J) as [H | (x & H)]; [|right; exists x; right; exact H].
  destruct v as [c'|c' d' y|c' r|c' r|c']; cbn [after_event] in H; auto.
  - destruct (d' =? 0); [auto|]. apply in_app_iff in H. destruct H as [H | [H | []]]; [auto|]. injection H as -> ->. right. exists y. left. reflexivity.
  - apply filter_In in H. tauto.
Qed.
Lemma outstanding_origin h : forall o d c, In (d, c) (fold_left after_entry h o) -> In (d, c) o \/ exists x, In (Request c d x) (events h).
Proof.
  induction h as [|[[i out] ev] h IH]; intros o d c J; [auto|]. cbn [fold_left] in J. destruct (IH _ _ _ J) as [H | (x & H)]; [|right; exists x; cbn; apply in_app_iff; right; exact H].
  assert (H' : In (d, c) (fold_left after_event ev o)) by (cbn [after_entry] in H; destruct i; try exact H; destruct out; try exact H; apply filter_In in H; tauto).
  destruct (outstanding_origin_events _ _ _ _ H') as [X | (x & X)]; [auto|right; exists x; cbn; apply in_app_iff; left; exact X].
Qed.
Lemma isolated e dyn fix0 is1 s1 h1 is2 s2 h2 i s3 out ev d r :
  xrun e is1 (CallModel.start dyn fix0) = (s1, h1) -> outstanding h1 = [] -> xrun e is2 s1 = (s2, h2) -> xstep e i s2 = (s3, out, ev) -> (out = O_reply d r \/ out = O_fail d r) ->
  exists c x, In (Took c r) ev /\ In (Request c d x) (events h2 ++ ev).
Proof.
  intros R1 E R2 H O. assert (R : xrun e (is1 ++ is2) (CallModel.start dyn fix0) = (s2, h1 ++ h2)) by (rewrite xrun_app, R1, R2; reflexivity).
  destruct i as [nt nr l|d0 any nb sg|d0|nt l arr|c0 r0|i].
  - exfalso. cbn [xstep] in H. assert (A := acall_events _ _ _ _ _ _ _ _ H). destruct A as (_ & A). destruct out; try (destruct O; discriminate); (destruct A as (k & A & _); [intros ? X; discriminate X|discriminate A]).
  - destruct (getrply_matches _ _ _ _ _ _ R _ _ _ _ _ _ _ _ _ H O) as (c & -> & J & _). rewrite outstanding_app, E in J. destruct (outstanding_origin _ _ _ _ J) as [[] | (x & X)].
    exists c, x. split; [left; reflexivity|]. apply in_app_iff. left. exact X.
  - exfalso. cbn [xstep] in H. unfold cancel in H. destruct (get d0 (p_descs s2)); [|injection H as _ <- _; destruct O; discriminate]. destruct (associated _ _); injection H as _ <- _; destruct O; discriminate.
  - destruct (tpcall_reply _ _ _ _ _ _ R _ _ _ _ _ _ _ _ H O) as (c & x & -> & _). exists c, x. split; [right; right; apply in_app_iff; right; left; reflexivity|]. apply in_app_iff. right. right. left. reflexivity.
  - exfalso. cbn in H. injection H as _ <- _. destruct O; discriminate.
  - exfalso. destruct i; cbn [xstep] in H; try (match type of H with (let '(_, _) := ?X in _) = _ => destruct X as [tt rr] end; injection H as _ <- _; destruct O; discriminate); try (injection H as _ <- _; destruct O; discriminate).
Qed.
