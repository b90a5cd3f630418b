(* The directory is what the history says was advertised. *)
From Coq Require Import ZArith List Bool Lia.
From Verif Require Import FanModel SvcModel SvcSpec SvcLemmas SvcInv SvcStep SvcRes SvcCount.
Import ListNotations.
Local Open Scope Z_scope.

(* what the state holds: (process, service) and (process, (service, order, hops)) *)
Definition AS (s : state) (y : handle * Z) : Prop :=
  exists vi v i q, get (s_svc s) vi = Some v /\ v_name v = snd y /\ In i (v_seq v) /\ get (s_seq s) i = Some q /\ q_proc q = fst y.
Definition OS (s : state) (y : handle * (Z * Z * Z)) : Prop :=
  exists vi v i c, get (s_svc s) vi = Some v /\ v_name v = fst (fst (snd y)) /\ In (mk_cc i (snd (fst (snd y))) (snd (snd y))) (v_conc v) /\
    get (s_con s) i = Some c /\ ci_proc c = fst y.

(* the part of the concurrent instances with the least (order, hops) *)
Definition cc_le (a b : conc) : Prop := cc_order a < cc_order b \/ (cc_order a = cc_order b /\ cc_hops a <= cc_hops b).
Inductive csorted : list conc -> Prop :=
| cs_nil : csorted []
| cs_cons x l : csorted l -> Forall (cc_le x) l -> csorted (x :: l).
Definition ordered (s : state) : Prop := forall vi v, get (s_svc s) vi = Some v -> csorted (v_conc v) /\ v_prio v = v_prio (prioritize v).

Section Dir.
Variable cfg : config.
Variable U : Z -> Prop.
Variable owner : Z -> Z.
Hypothesis HU : unambiguous cfg U.

(* ---------------------------------------------------------------- names *)
Record dn (s : state) : Prop := {
  n_u : forall vi v, get (s_svc s) vi = Some v -> U (v_name v);
  n_uniq : forall vi vi' v v', get (s_svc s) vi = Some v -> get (s_svc s) vi' = Some v' -> v_name v = v_name v' -> vi = vi';
  n_some : forall n vi, lookup_name n s = Some vi -> exists v, get (s_svc s) vi = Some v /\ In n (names cfg (v_name v));
  n_all : forall vi v n, get (s_svc s) vi = Some v -> In n (names cfg (v_name v)) -> lookup_name n s = Some vi }.

Lemma names_ne o : exists n, In n (names cfg o).
Proof. unfold names. destruct (g_routes cfg o) as [|n l]; [exists o|exists n]; left; reflexivity. Qed.

Lemma lookup_set n i k l : match find (fun x => fst x =? n) (set_name k i l) with Some (_, j) => Some j | None => None end
   = if n =? k then Some i else match find (fun x => fst x =? n) l with Some (_, j) => Some j | None => None end.
Proof.
  unfold set_name. cbn [find fst]. rewrite (Z.eqb_sym k n). destruct (Z.eqb_spec n k) as [->|Hne]; [reflexivity|].
  induction l as [|[m j] l IH]; [reflexivity|]. cbn [filter fst]. destruct (Z.eqb_spec m k) as [->|]; cbn [negb find fst].
  - destruct (Z.eqb_spec k n); [congruence|exact IH].
  - destruct (Z.eqb_spec m n); [reflexivity|exact IH].
Qed.
Lemma lookup_sets n i ns : forall l, match find (fun x => fst x =? n) (fold_left (fun l k => set_name k i l) ns l) with Some (_, j) => Some j | None => None end
   = if memz n ns then Some i else match find (fun x => fst x =? n) l with Some (_, j) => Some j | None => None end.
Proof.
  induction ns as [|k ns IH]; intros l; cbn [fold_left]; [reflexivity|]. rewrite IH, lookup_set. unfold memz. cbn [existsb].
  destruct (n =? k); cbn [orb]; destruct (existsb _ ns); reflexivity.
Qed.

(* the same services by name *)
Definition same_names (s s' : state) : Prop :=
  (forall n, lookup_name n s' = lookup_name n s) /\ (forall vi, option_map v_name (get (s_svc s') vi) = option_map v_name (get (s_svc s) vi)).
Lemma dn_same s s' : same_names s s' -> dn s -> dn s'.
Proof.
  intros [H1 H2] [A B C D].
  assert (H : forall vi v, get (s_svc s') vi = Some v -> exists v0, get (s_svc s) vi = Some v0 /\ v_name v0 = v_name v).
  { intros vi v Hv. specialize (H2 vi). rewrite Hv in H2. destruct (get (s_svc s) vi) as [v0|]; [|discriminate]. injection H2 as H2. eauto. }
  split.
  - intros vi v Hv. destruct (H _ _ Hv) as (v0 & Hv0 & <-). eauto.
  - intros vi vi' v v' Hv Hv' E. destruct (H _ _ Hv) as (v0 & Hv0 & E0). destruct (H _ _ Hv') as (v1 & Hv1 & E1). apply (B vi vi' v0 v1); congruence.
  - intros n vi Hn. rewrite H1 in Hn. destruct (C _ _ Hn) as (v0 & Hv0 & Hin). specialize (H2 vi). rewrite Hv0 in H2. destruct (get (s_svc s') vi) as [v|]; [|discriminate].
    injection H2 as H2. exists v. split; [reflexivity|]. rewrite H2. exact Hin.
  - intros vi v n Hv Hin. rewrite H1. destruct (H _ _ Hv) as (v0 & Hv0 & E0). apply (D vi v0); congruence.
Qed.
Lemma same_names_refl s : same_names s s. Proof. split; reflexivity. Qed.
Lemma same_names_trans a b c : same_names a b -> same_names b c -> same_names a c.
Proof. intros [A B] [C D]. split; intros; [rewrite C; apply A|rewrite D; apply B]. Qed.
Lemma same_names_eq s s' : s_svc s' = s_svc s -> s_names s' = s_names s -> same_names s s'.
Proof. intros A B. split; intros; [unfold lookup_name; rewrite B|rewrite A]; reflexivity. Qed.
Lemma same_names_upd s vi f : (forall v, v_name (f v) = v_name v) -> same_names s (with_svc (upd vi f (s_svc s)) s).
Proof.
  intros Hf. split; [reflexivity|]. intros k. cbn. rewrite get_upd. destruct (Nat.eqb_spec k vi) as [->|]; [|reflexivity]. destruct (get (s_svc s) vi); cbn; [rewrite Hf|]; reflexivity.
Qed.
Lemma same_names_map s f : (forall v, v_name (f v) = v_name v) -> same_names s (map_svc f s).
Proof. intros Hf. split; [reflexivity|]. intros k. cbn. rewrite get_map. destruct (get (s_svc s) k); cbn; [rewrite Hf|]; reflexivity. Qed.

Lemma insert_dn v0 s s' vi : dn s -> U (v_name v0) -> insert_service cfg v0 s = (s', vi) -> dn s' /\ exists v, get (s_svc s') vi = Some v /\ v_name v = v_name v0.
Proof.
  intros [A B C D] HU0 H. unfold insert_service in H.
  assert (Hin : forall n k, lookup_name n s = Some k -> In n (v_name v0 :: names cfg (v_name v0)) -> exists v, get (s_svc s) k = Some v /\ v_name v = v_name v0).
  { intros n k Hn Hi. destruct (C _ _ Hn) as (v & Hv & Hm). exists v. split; [exact Hv|]. symmetry. apply (HU (v_name v0) (v_name v) n); eauto. }
  assert (Hfresh : forall k, (forall n, In n (names cfg (v_name v0)) -> lookup_name n s = None) -> get (s_svc s) k = None ->
     forall s1, (forall j, get (s_svc s1) j = if Nat.eqb j k then Some v0 else get (s_svc s) j) ->
     (forall n, lookup_name n s1 = if memz n (names cfg (v_name v0)) then Some k else lookup_name n s) -> dn s1).
  { intros k Hnone Hk s1 Hs Hn. split.
    - intros j v. rewrite Hs. destruct (Nat.eqb j k); [intros [= <-]; exact HU0|apply A].
    - assert (Hdiff : forall j v, get (s_svc s) j = Some v -> v_name v <> v_name v0).
      { intros j v Hv E. destruct (names_ne (v_name v0)) as (n & Hn0). rewrite <- E in Hn0. pose proof (D _ _ _ Hv Hn0). rewrite E in Hn0. rewrite (Hnone n Hn0) in H0. discriminate. }
      intros a b v v'. rewrite !Hs. destruct (Nat.eqb_spec a k), (Nat.eqb_spec b k); subst; intros Ha Hb E; auto.
      + injection Ha as <-. exfalso. apply (Hdiff _ _ Hb). auto.
      + injection Hb as <-. exfalso. apply (Hdiff _ _ Ha). auto.
      + eauto.
    - intros n j Hj. rewrite Hn in Hj. destruct (memz n _) eqn:E.
      + injection Hj as <-. exists v0. rewrite Hs, Nat.eqb_refl. split; [reflexivity|]. apply memz_In. exact E.
      + destruct (C _ _ Hj) as (v & Hv & Hm). exists v. split; [|exact Hm]. rewrite Hs. destruct (Nat.eqb_spec j k); [congruence|exact Hv].
    - intros j v n. rewrite Hs, Hn. destruct (Nat.eqb_spec j k) as [->|].
      + intros [= <-] Hm. apply memz_In in Hm. rewrite Hm. reflexivity.
      + intros Hv Hm. pose proof (D _ _ _ Hv Hm) as Hl. destruct (memz n _) eqn:E; [|exact Hl]. apply memz_In in E. rewrite (Hnone n E) in Hl. discriminate. }
  unfold names in Hfresh. destruct (g_routes cfg (v_name v0)) as [|n0 ns] eqn:Er.
  - assert (En : names cfg (v_name v0) = [v_name v0]) by (unfold names; rewrite Er; reflexivity).
    destruct (lookup_name (v_name v0) s) as [i|] eqn:El.
    + injection H as <- <-. split; [split; assumption|]. eapply Hin; [exact El|left; reflexivity].
    + destruct (insert v0 (s_svc s)) as [l i] eqn:Ei. injection H as <- <-. destruct (insert_spec _ _ _ _ Ei) as [H1 H2]. split.
      * apply (Hfresh i); [intros n [<- | []]; exact El|exact H1|exact H2|]. intros n. unfold lookup_name at 1. cbn [with_names s_names with_svc]. rewrite lookup_set.
        unfold memz. cbn [existsb]. destruct (n =? v_name v0); reflexivity.
      * exists v0. cbn [with_names with_svc s_svc]. rewrite H2, Nat.eqb_refl. auto.
  - assert (En : names cfg (v_name v0) = n0 :: ns) by (unfold names; rewrite Er; reflexivity).
    assert (Hold : forall i v, get (s_svc s) i = Some v -> v_name v = v_name v0 ->
       dn (with_names (fold_left (fun l n => set_name n i l) (n0 :: ns) (s_names s)) s)).
    { intros i v Hv E. apply dn_same with s; [|split; assumption]. split; [|reflexivity]. intros n. unfold lookup_name. cbn [with_names s_names].
      rewrite lookup_sets. destruct (memz n (n0 :: ns)) eqn:Em; [|reflexivity]. symmetry. apply (D i v); [exact Hv|]. rewrite E, En. apply memz_In. exact Em. }
    destruct (lookup_name (v_name v0) s) as [i|] eqn:El.
    + destruct (Hin _ _ El) as (v & Hv & E); [left; reflexivity|]. injection H as <- <-. split; [eapply Hold; eauto|]. exists v. auto.
    + destruct (first_known (n0 :: ns) s) as [i|] eqn:Ef.
      * destruct (first_known_in _ _ _ Ef) as (n & Hn & Hl). destruct (Hin _ _ Hl) as (v & Hv & E); [right; rewrite En; exact Hn|].
        injection H as <- <-. split; [eapply Hold; eauto|]. exists v. auto.
      * destruct (insert v0 (s_svc s)) as [l i] eqn:Ei. injection H as <- <-. destruct (insert_spec _ _ _ _ Ei) as [H1 H2]. split.
        -- apply (Hfresh i); [|exact H1|exact H2|].
           ++ clear - Ef. intros n Hn. revert Ef. generalize (n0 :: ns) Hn. intros l. induction l as [|m l IH]; intros Hm; [destruct Hm|]. cbn [first_known].
              destruct (lookup_name m s) eqn:E; [discriminate|]. intros Hf. destruct Hm as [<-|Hm]; auto.
           ++ intros n. unfold lookup_name at 1. cbn [with_names s_names with_svc]. exact (lookup_sets n i (n0 :: ns) (s_names s)).
        -- exists v0. cbn [with_names with_svc s_svc]. rewrite H2, Nat.eqb_refl. auto.
Qed.

(* ---------------------------------------------------------------- AS and OS after each change *)
Lemma AS_eq s s' : (forall vi v, get (s_svc s) vi = Some v -> exists v', get (s_svc s') vi = Some v' /\ v_name v' = v_name v /\ v_seq v' = v_seq v) ->
  (forall i q, get (s_seq s) i = Some q -> exists q', get (s_seq s') i = Some q' /\ q_proc q' = q_proc q) -> forall y, AS s y -> AS s' y.
Proof.
  intros H1 H2 y (vi & v & i & q & A & B & C & D & E). destruct (H1 _ _ A) as (v' & A' & B' & C'). destruct (H2 _ _ D) as (q' & D' & E').
  exists vi, v', i, q'. rewrite B', C', E'. auto.
Qed.
Lemma OS_eq s s' : (forall vi v, get (s_svc s) vi = Some v -> exists v', get (s_svc s') vi = Some v' /\ v_name v' = v_name v /\ (forall c, In c (v_conc v) -> In c (v_conc v'))) ->
  (forall i q, get (s_con s) i = Some q -> exists q', get (s_con s') i = Some q' /\ ci_proc q' = ci_proc q) -> forall y, OS s y -> OS s' y.
Proof.
  intros H1 H2 y (vi & v & i & q & A & B & C & D & E). destruct (H1 _ _ A) as (v' & A' & B' & C'). destruct (H2 _ _ D) as (q' & D' & E').
  exists vi, v', i, q'. rewrite B', E'. auto.
Qed.
Lemma AS_same s s' y : same_dir s s' -> AS s' y <-> AS s y.
Proof.
  intros H. split; apply AS_eq; try (intros vi v; rewrite (sd_svc _ _ H); eauto); intros i q Hq.
  - destruct (same_get _ _ _ _ H Hq) as (q' & A & B & _). eauto.
  - destruct (same_get2 _ _ _ _ H Hq) as (q' & A & B & _). exists q'. auto.
Qed.
Lemma OS_same s s' y : same_dir s s' -> OS s' y <-> OS s y.
Proof. intros H. split; apply OS_eq; intros a b; rewrite ?(sd_svc _ _ H), ?(sd_con _ _ H); eauto. Qed.

Lemma AS_insert v0 s s' vi y : grows v0 s s' vi -> v_seq v0 = [] -> AS s' y <-> AS s y.
Proof.
  intros G Hs. split.
  - intros (k & v & i & q & A & B & C & D & E). destruct (grows_get _ _ _ _ _ _ G A) as [A' | [_ ->]]; [|rewrite Hs in C; destruct C].
    rewrite (gr_seq _ _ _ _ G) in D. exists k, v, i, q. auto.
  - apply AS_eq; [intros k v Hv; exists v; split; [eapply grows_keep; eauto|auto]|]. rewrite (gr_seq _ _ _ _ G). eauto.
Qed.
Lemma OS_insert v0 s s' vi y : grows v0 s s' vi -> v_conc v0 = [] -> OS s' y <-> OS s y.
Proof.
  intros G Hs. split.
  - intros (k & v & i & q & A & B & C & D & E). destruct (grows_get _ _ _ _ _ _ G A) as [A' | [_ ->]]; [|rewrite Hs in C; destruct C].
    rewrite (gr_con _ _ _ _ G) in D. exists k, v, i, q. auto.
  - apply OS_eq; [intros k v Hv; exists v; split; [eapply grows_keep; eauto|auto]|]. rewrite (gr_con _ _ _ _ G). eauto.
Qed.

Lemma AS_add i n s q y : inv s -> dn s -> U n -> get (s_seq s) i = Some q ->
  dn (add_seq_service cfg i n s) /\ (AS (add_seq_service cfg i n s) y <-> AS s y \/ y = (q_proc q, n)).
Proof.
  intros Hi Hd Hu Hq. unfold add_seq_service. destruct (insert_service cfg _ s) as [s1 vi] eqn:E.
  destruct (insert_dn (mk_v n (g_timeout cfg) (g_fatal cfg) [] [] 0) _ _ _ Hd Hu E) as [Hd1 (v & Hv & Hn)]. cbn [v_name] in Hn. pose proof (insert_service_grows _ _ _ _ _ Hi E) as G.
  pose proof (AS_insert _ s s1 vi y G eq_refl) as HA. rewrite <- (gr_seq _ _ _ _ G) in Hq. split.
  - eapply dn_same; [|exact Hd1]. eapply same_names_trans; [|apply (same_names_upd (with_seq (upd i (q_add vi) (s_seq s1)) s1))]; [apply same_names_eq; reflexivity|]. intros w. apply v_add_seq_conc.
  - rewrite <- HA. clear HA. split.
    + intros (k & w & j & p & A & B & C & D & F). cbn [with_svc with_seq s_svc s_seq] in A, D. rewrite get_upd in A. rewrite get_upd in D.
      assert (Hp : exists p0, get (s_seq s1) j = Some p0 /\ q_proc p0 = q_proc p).
      { destruct (Nat.eqb_spec j i) as [->|]; [|eauto]. rewrite Hq in D. injection D as <-. exists q. auto. }
      destruct Hp as (p0 & Hp0 & Ep). destruct (Nat.eqb_spec k vi) as [->|].
      * rewrite Hv in A. injection A as <-. apply v_add_seq_in in C. destruct C as [C | ->].
        -- left. exists vi, v, j, p0. destruct (v_add_seq_conc i v) as (_ & En & _). rewrite En in B. repeat split; congruence || assumption.
        -- right. destruct y as [h o]. cbn [fst snd] in *. destruct (v_add_seq_conc i v) as (_ & En & _). rewrite En in B. assert (p0 = q) by congruence. subst. congruence.
      * left. exists k, w, j, p0. repeat split; congruence || assumption.
    + intros [H | ->].
      * revert H. intros (k & w & j & p & A & B & C & D & F). exists k. cbn [with_svc with_seq s_svc s_seq].
        exists (if Nat.eqb k vi then v_add_seq i w else w), j, (if Nat.eqb j i then q_add vi p else p). rewrite !get_upd.
        destruct (Nat.eqb_spec k vi) as [->|], (Nat.eqb_spec j i) as [->|]; rewrite ?A, ?D; cbn [option_map q_add q_proc]; try (destruct (v_add_seq_conc i w) as (_ & En & _); rewrite En);
          repeat split; auto; apply v_add_seq_in; auto.
      * exists vi, (v_add_seq i v), i, (q_add vi q). cbn [with_svc with_seq s_svc s_seq fst snd]. rewrite !get_upd, !Nat.eqb_refl, Hv, Hq. cbn [option_map].
        destruct (v_add_seq_conc i v) as (_ & En & _). rewrite En. repeat split; auto. apply v_add_seq_in. auto.
Qed.
Lemma OS_add_seq i n s y : inv s -> OS (add_seq_service cfg i n s) y <-> OS s y.
Proof.
  intros Hi. unfold add_seq_service. destruct (insert_service cfg _ s) as [s1 vi] eqn:E. pose proof (insert_service_grows _ _ _ _ _ Hi E) as G.
  rewrite <- (OS_insert _ s s1 vi y G eq_refl). split; apply OS_eq; cbn [with_svc with_seq s_svc s_con]; try (intros; eauto; fail); intros k v; rewrite get_upd; destruct (Nat.eqb_spec k vi) as [->|]; eauto.
  - destruct (get (s_svc s1) vi) as [w|]; [|discriminate]. intros [= <-]. exists w. destruct (v_add_seq_conc i w) as (A & B & _). rewrite A, B. auto.
  - intros ->. eexists. split; [reflexivity|]. destruct (v_add_seq_conc i v) as (A & B & _). rewrite A, B. auto.
Qed.


(* services lose an instance *)
Definition del_named (g : svc -> svc) (ns : list Z) (v : svc) : svc := if memz (v_name v) ns then g v else v.
Lemma fold_named (step1 : state -> nat -> state) (g : svc -> svc) (ns : list Z) :
  (forall v, v_name (g v) = v_name v) ->
  (forall s k, s_svc (step1 s k) = match get (s_svc s) k with Some x => if memz (v_name x) ns then upd k g (s_svc s) else s_svc s | None => s_svc s end) ->
  forall l s, NoDup l -> forall j, get (s_svc (fold_left step1 l s)) j = option_map (fun v => if mem j l then del_named g ns v else v) (get (s_svc s) j).
Proof.
  intros Hg Hs. induction l as [|k l IH]; intros s Hl j; cbn [fold_left]; [destruct (get _ j); reflexivity|]. inversion Hl as [|? ? Hk Hl']; subst.
  rewrite IH by exact Hl'. rewrite Hs. unfold mem. cbn [existsb]. fold (mem j l). destruct (get (s_svc s) k) as [v|] eqn:Ev.
  - destruct (memz (v_name v) ns) eqn:Em; [rewrite get_upd|]; (destruct (Nat.eqb_spec j k) as [->|]; cbn [orb]; [|reflexivity]); rewrite Ev; cbn [option_map];
      rewrite (proj2 (mem_false k l) Hk); unfold del_named; rewrite Em; reflexivity.
  - destruct (Nat.eqb_spec j k) as [->|]; cbn [orb]; [|reflexivity]. rewrite Ev. reflexivity.
Qed.
Lemma mem_indexes (s : state) j v : get (s_svc s) j = Some v -> mem j (indexes (s_svc s)) = true.
Proof. intros H. apply mem_In, in_indexes. congruence. Qed.
Lemma remove_seqs_svc i ns s j : get (s_svc (remove_seq_services i ns s)) j = option_map (del_named (v_del_seq i) ns) (get (s_svc s) j).
Proof.
  unfold remove_seq_services. rewrite (fold_named _ (v_del_seq i) ns); [|reflexivity| |apply indexes_nodup].
  - destruct (get (s_svc s) j) eqn:E; [|reflexivity]. rewrite (mem_indexes _ _ _ E). reflexivity.
  - intros s0 k. destruct (get (s_svc s0) k); [|reflexivity]. destruct (memz _ _); reflexivity.
Qed.
Lemma remove_cons_svc i ns s j : get (s_svc (remove_con_services i ns s)) j = option_map (del_named (v_del_conc i) ns) (get (s_svc s) j).
Proof.
  unfold remove_con_services. rewrite (fold_named _ (v_del_conc i) ns); [|reflexivity| |apply indexes_nodup].
  - destruct (get (s_svc s) j) eqn:E; [|reflexivity]. rewrite (mem_indexes _ _ _ E). reflexivity.
  - intros s0 k. destruct (get (s_svc s0) k); [|reflexivity]. destruct (memz _ _); reflexivity.
Qed.
Lemma fold_eq {A B} (f : state -> A -> state) (g : state -> B) l : (forall s x, g (f s x) = g s) -> forall s, g (fold_left f l s) = g s.
Proof. intros Hf. induction l as [|x l IH]; intros s; cbn [fold_left]; [reflexivity|]. rewrite IH. apply Hf. Qed.
Lemma remove_seqs_rest i ns s : s_names (remove_seq_services i ns s) = s_names s /\ s_con (remove_seq_services i ns s) = s_con s /\
  forall j, option_map q_proc (get (s_seq (remove_seq_services i ns s)) j) = option_map q_proc (get (s_seq s) j).
Proof.
  unfold remove_seq_services. split; [|split].
  - apply (fold_eq _ s_names). intros s0 k. destruct (get (s_svc s0) k); [|reflexivity]. destruct (memz _ _); reflexivity.
  - apply (fold_eq _ s_con). intros s0 k. destruct (get (s_svc s0) k); [|reflexivity]. destruct (memz _ _); reflexivity.
  - intros j. apply (fold_eq _ (fun s => option_map q_proc (get (s_seq s) j))). intros s0 k. destruct (get (s_svc s0) k); [|reflexivity]. destruct (memz _ _); [|reflexivity].
    cbn [with_svc with_seq s_seq]. rewrite get_upd. destruct (Nat.eqb_spec j i) as [->|]; [|reflexivity]. destruct (get (s_seq s0) i); reflexivity.
Qed.
Lemma remove_cons_rest i ns s : s_names (remove_con_services i ns s) = s_names s /\ s_con (remove_con_services i ns s) = s_con s /\ s_seq (remove_con_services i ns s) = s_seq s.
Proof.
  unfold remove_con_services. split; [|split]; [apply (fold_eq _ s_names)|apply (fold_eq _ s_con)|apply (fold_eq _ s_seq)];
  intros s0 k; destruct (get (s_svc s0) k); try reflexivity; destruct (memz _ _); reflexivity.
Qed.
Lemma del_named_name g ns v : (forall v, v_name (g v) = v_name v) -> v_name (del_named g ns v) = v_name v.
Proof. intros Hg. unfold del_named. destruct (memz _ _); auto. Qed.

Lemma proc_some s s' j q' : option_map q_proc (get (s_seq s') j) = option_map q_proc (get (s_seq s) j) -> get (s_seq s') j = Some q' -> exists q, get (s_seq s) j = Some q /\ q_proc q = q_proc q'.
Proof. intros H E. rewrite E in H. destruct (get (s_seq s) j) as [q|]; [|discriminate]. cbn in H. injection H as H. eauto. Qed.

Lemma AS_removes i ns s q y : inv s -> get (s_seq s) i = Some q ->
  AS (remove_seq_services i ns s) y <-> AS s y /\ ~ (h_ipc (fst y) = h_ipc (q_proc q) /\ In (snd y) ns).
Proof.
  intros Hi Hq. destruct (remove_seqs_rest i ns s) as (_ & _ & Hs). split.
  - intros (k & w & j & p & A & B & C & D & F). rewrite remove_seqs_svc in A. destruct (get (s_svc s) k) as [v|] eqn:Ev; [|discriminate]. cbn in A. injection A as <-.
    destruct (proc_some _ _ _ _ (Hs j) D) as (p0 & Hp0 & Ep). unfold del_named in B, C. destruct (memz (v_name v) ns) eqn:Em.
    + apply v_del_seq_in in C. destruct C as [C Hne]. split; [exists k, v, j, p0; repeat split; congruence || assumption|]. intros [E _]. apply Hne. apply (i_ipc _ Hi j i p0 q); congruence.
    + split; [exists k, v, j, p0; repeat split; congruence || assumption|]. intros [_ E]. apply memz_false in Em. apply Em. congruence.
  - intros [(k & w & j & p & A & B & C & D & F) Hne]. destruct (proc_some _ _ _ _ (eq_sym (Hs j)) D) as (p0 & Hp0 & Ep).
    exists k, (del_named (v_del_seq i) ns w), j, p0. rewrite remove_seqs_svc, A. split; [reflexivity|]. split; [rewrite del_named_name; [exact B|reflexivity]|].
    split; [|split; [exact Hp0|congruence]]. unfold del_named. destruct (memz (v_name w) ns) eqn:Em; [|exact C]. apply v_del_seq_in. split; [exact C|]. intros ->.
    apply Hne. split; [congruence|]. apply memz_In in Em. congruence.
Qed.
Lemma OS_removes_seq i ns s y : OS (remove_seq_services i ns s) y <-> OS s y.
Proof.
  destruct (remove_seqs_rest i ns s) as (_ & Hc & _). split; apply OS_eq; rewrite ?Hc; eauto; intros k v; rewrite remove_seqs_svc.
  - destruct (get (s_svc s) k) as [w|]; [|discriminate]. intros [= <-]. exists w. unfold del_named. destruct (memz _ _); auto.
  - intros ->. eexists. split; [reflexivity|]. unfold del_named. destruct (memz _ _); auto.
Qed.
Lemma same_names_removes i ns s : same_names s (remove_seq_services i ns s).
Proof.
  destruct (remove_seqs_rest i ns s) as (Hn & _ & _). split; [intros n; unfold lookup_name; rewrite Hn; reflexivity|]. intros k. rewrite remove_seqs_svc.
  destruct (get (s_svc s) k); cbn [option_map]; [rewrite del_named_name by reflexivity|]; reflexivity.
Qed.
Lemma same_names_removes_con i ns s : same_names s (remove_con_services i ns s).
Proof.
  destruct (remove_cons_rest i ns s) as (Hn & _ & _). split; [intros n; unfold lookup_name; rewrite Hn; reflexivity|]. intros k. rewrite remove_cons_svc.
  destruct (get (s_svc s) k); cbn [option_map]; [rewrite del_named_name by reflexivity|]; reflexivity.
Qed.
Lemma OS_removes i ns s c y : inv s -> get (s_con s) i = Some c ->
  OS (remove_con_services i ns s) y <-> OS s y /\ ~ (h_ipc (fst y) = h_ipc (ci_proc c) /\ In (fst (fst (snd y))) ns).
Proof.
  intros Hi Hq. destruct (remove_cons_rest i ns s) as (_ & Hc & _). split.
  - intros (k & w & j & p & A & B & C & D & F). rewrite remove_cons_svc in A. rewrite Hc in D. destruct (get (s_svc s) k) as [v|] eqn:Ev; [|discriminate]. cbn in A. injection A as <-.
    unfold del_named in B, C. destruct (memz (v_name v) ns) eqn:Em.
    + apply v_del_conc_in in C. destruct C as [C Hne]. cbn [cc_id] in Hne. split; [exists k, v, j, p; repeat split; congruence || assumption|]. intros [E _]. apply Hne. apply (i_cipc _ Hi j i p c); congruence.
    + split; [exists k, v, j, p; repeat split; congruence || assumption|]. intros [_ E]. apply memz_false in Em. apply Em. congruence.
  - intros [(k & w & j & p & A & B & C & D & F) Hne].
    exists k, (del_named (v_del_conc i) ns w), j, p. rewrite remove_cons_svc, A, Hc. split; [reflexivity|]. split; [rewrite del_named_name; [exact B|reflexivity]|].
    split; [|auto]. unfold del_named. destruct (memz (v_name w) ns) eqn:Em; [|exact C]. apply v_del_conc_in. split; [exact C|]. cbn [cc_id]. intros ->.
    apply Hne. split; [congruence|]. apply memz_In in Em. congruence.
Qed.
Lemma AS_removes_con i ns s y : AS (remove_con_services i ns s) y <-> AS s y.
Proof.
  destruct (remove_cons_rest i ns s) as (_ & _ & Hc). split; apply AS_eq; rewrite ?Hc; eauto; intros k v; rewrite remove_cons_svc.
  - destruct (get (s_svc s) k) as [w|]; [|discriminate]. intros [= <-]. exists w. unfold del_named. destruct (memz _ _); auto.
  - intros ->. eexists. split; [reflexivity|]. unfold del_named. destruct (memz _ _); auto.
Qed.


(* instances *)
Lemma dir_find_or_add h s s' i : inv s -> find_or_add_seq h s = (s', i) ->
  s_svc s' = s_svc s /\ s_names s' = s_names s /\ s_con s' = s_con s /\ (forall y, AS s' y <-> AS s y) /\
  (forall j q, get (s_seq s') j = Some q -> get (s_seq s) j = Some q \/ q_proc q = h).
Proof.
  intros Hi H. unfold find_or_add_seq in H. destruct (find_seq _ _); [injection H as <- <-; repeat split; auto|]. destruct (insert _ _) as [l k] eqn:E. injection H as <- <-.
  destruct (insert_spec _ _ _ _ E) as [H1 H2]. split; [reflexivity|]. split; [reflexivity|]. split; [reflexivity|]. split.
  - intros y. split; intros (vi & v & j & q & A & B & C & D & F); cbn [with_seq s_svc s_seq] in *.
    + destruct (i_seq _ Hi _ _ _ A C) as (q0 & Hq0 & _). rewrite H2 in D. exists vi, v, j, q0. destruct (Nat.eqb_spec j k); [congruence|]. repeat split; congruence.
    + exists vi, v, j, q. rewrite H2. destruct (Nat.eqb_spec j k); [congruence|]. repeat split; auto.
  - intros j q Hq. cbn [with_seq s_seq] in Hq. rewrite H2 in Hq. destruct (Nat.eqb_spec j k); [injection Hq as <-; auto|auto].
Qed.
Lemma dir_find_or_add_con h s s' i : inv s -> find_or_add_con h s = (s', i) ->
  s_svc s' = s_svc s /\ s_names s' = s_names s /\ s_seq s' = s_seq s /\ (forall y, OS s' y <-> OS s y) /\
  (forall j q, get (s_con s') j = Some q -> get (s_con s) j = Some q \/ ci_proc q = h).
Proof.
  intros Hi H. unfold find_or_add_con in H. destruct (find_con _ _); [injection H as <- <-; repeat split; auto|]. destruct (insert _ _) as [l k] eqn:E. injection H as <- <-.
  destruct (insert_spec _ _ _ _ E) as [H1 H2]. split; [reflexivity|]. split; [reflexivity|]. split; [reflexivity|]. split.
  - intros y. split; intros (vi & v & j & q & A & B & C & D & F); cbn [with_con s_svc s_con] in *.
    + destruct (i_con _ Hi _ _ _ A C) as (q0 & Hq0). cbn [cc_id] in Hq0. rewrite H2 in D. exists vi, v, j, q0. destruct (Nat.eqb_spec j k); [congruence|]. repeat split; congruence.
    + exists vi, v, j, q. rewrite H2. destruct (Nat.eqb_spec j k); [congruence|]. repeat split; auto.
  - intros j q Hq. cbn [with_con s_con] in Hq. rewrite H2 in Hq. destruct (Nat.eqb_spec j k); [injection Hq as <-; auto|auto].
Qed.

(* removal of processes *)
Definition v_del_seqs (l : list nat) (v : svc) : svc := fold_left (fun v i => v_del_seq i v) l v.
Definition v_del_concs (l : list nat) (v : svc) : svc := fold_left (fun v i => v_del_conc i v) l v.
Lemma v_del_seqs_spec l : forall v, v_name (v_del_seqs l v) = v_name v /\ v_conc (v_del_seqs l v) = v_conc v /\ v_prio (v_del_seqs l v) = v_prio v /\
  forall i, In i (v_seq (v_del_seqs l v)) <-> In i (v_seq v) /\ ~ In i l.
Proof.
  unfold v_del_seqs. induction l as [|k l IH]; intros v; cbn [fold_left]; [repeat split; auto; tauto|]. destruct (IH (v_del_seq k v)) as (A & B & C & D).
  split; [rewrite A; reflexivity|]. split; [rewrite B; reflexivity|]. split; [rewrite C; reflexivity|]. intros i. rewrite D, v_del_seq_in. cbn [In]. intuition congruence.
Qed.
Lemma v_del_concs_spec l : forall v, v_name (v_del_concs l v) = v_name v /\ v_seq (v_del_concs l v) = v_seq v /\
  forall c, In c (v_conc (v_del_concs l v)) <-> In c (v_conc v) /\ ~ In (cc_id c) l.
Proof.
  unfold v_del_concs. induction l as [|k l IH]; intros v; cbn [fold_left]; [repeat split; auto; tauto|]. destruct (IH (v_del_conc k v)) as (A & B & D).
  split; [rewrite A; reflexivity|]. split; [rewrite B; reflexivity|]. intros i. rewrite D, v_del_conc_in. cbn [In]. intuition congruence.
Qed.
Lemma remove_process_spec p s :
  let s' := fst (remove_process p s) in
  let con := having (fun q => p (ci_proc q)) (s_con s) in
  let seq := having (fun q => p (q_proc q)) (s_seq s) in
  s_names s' = s_names s /\
  (forall k, get (s_svc s') k = option_map (fun v => v_del_seqs seq (v_del_concs con v)) (get (s_svc s) k)) /\
  (forall k, get (s_con s') k = if mem k con then None else get (s_con s) k).
Proof.
  cbv zeta. unfold remove_process. cbn [fst].
  set (con := having (fun q => p (ci_proc q)) (s_con s)). set (sq := having (fun q => p (q_proc q)) (s_seq s)).
  assert (A : forall l s, let s' := fold_left (fun s i => remove_con_instance i s) l s in s_names s' = s_names s /\
     (forall k, get (s_svc s') k = option_map (v_del_concs l) (get (s_svc s) k)) /\ (forall k, get (s_con s') k = if mem k l then None else get (s_con s) k)).
  { clear. induction l as [|i l IH]; intros s; cbn [fold_left].
    - split; [reflexivity|]. split; [|reflexivity]. intros k. destruct (get (s_svc s) k); reflexivity.
    - destruct (IH (remove_con_instance i s)) as (A & B & C). split; [rewrite A; reflexivity|]. split.
      + intros k. rewrite B. unfold remove_con_instance, map_svc. cbn [with_con with_svc s_svc]. rewrite get_map. destruct (get (s_svc s) k); reflexivity.
      + intros k. rewrite C. unfold remove_con_instance. cbn [with_con s_con]. rewrite get_put_none. unfold map_svc. cbn [with_svc s_con]. unfold mem. cbn [existsb].
        destruct (Nat.eqb_spec k i); cbn [orb]; destruct (existsb _ l); reflexivity. }
  assert (B : forall l s, let s' := fold_left (fun s i => remove_seq_instance i s) l s in s_names s' = s_names s /\
     (forall k, get (s_svc s') k = option_map (v_del_seqs l) (get (s_svc s) k)) /\ s_con s' = s_con s).
  { clear. induction l as [|i l IH]; intros s; cbn [fold_left].
    - split; [reflexivity|]. split; [|reflexivity]. intros k. destruct (get (s_svc s) k); reflexivity.
    - destruct (IH (remove_seq_instance i s)) as (A & B & C). split; [rewrite A; reflexivity|]. split; [|rewrite C; reflexivity].
      intros k. rewrite B. unfold remove_seq_instance, map_svc. cbn [with_disabled with_seq with_svc s_svc]. rewrite get_map. destruct (get (s_svc s) k); reflexivity. }
  destruct (A con s) as (A1 & A2 & A3). destruct (B sq (fold_left (fun s i => remove_con_instance i s) con s)) as (B1 & B2 & B3).
  split; [congruence|]. split; [|rewrite B3; exact A3]. intros k. rewrite B2, A2. destruct (get (s_svc s) k); reflexivity.
Qed.

Lemma same_names_remove p s : same_names s (fst (remove_process p s)).
Proof.
  destruct (remove_process_spec p s) as (A & B & _). cbv zeta in *. split; [intros n; unfold lookup_name; rewrite A; reflexivity|]. intros k. rewrite B.
  destruct (get (s_svc s) k) as [v|]; [|reflexivity]. cbn [option_map]. rewrite (proj1 (v_del_seqs_spec _ _)), (proj1 (v_del_concs_spec _ _)). reflexivity.
Qed.
Lemma AS_remove p s y : inv s -> AS (fst (remove_process p s)) y <-> AS s y /\ p (fst y) = false.
Proof.
  intros Hi. destruct (remove_process_spec p s) as (_ & B & _). cbv zeta in *. split.
  - intros (k & w & j & q & A & E & C & D & F). rewrite B in A. destruct (get (s_svc s) k) as [v|] eqn:Ev; [|discriminate]. injection A as <-.
    destruct (v_del_seqs_spec (having (fun q => p (q_proc q)) (s_seq s)) (v_del_concs (having (fun q => p (ci_proc q)) (s_con s)) v)) as (N & _ & _ & S).
    destruct (v_del_concs_spec (having (fun q => p (ci_proc q)) (s_con s)) v) as (N' & S' & _). apply S in C. rewrite S' in C. destruct C as [C Hn].
    rewrite remove_process_seq in D. destruct (get (s_seq s) j) as [q0|] eqn:Eq; [|discriminate]. destruct (p (q_proc q0)) eqn:Ep; [discriminate|]. injection D as ->.
    split; [exists k, v, j, q; repeat split; congruence || assumption|congruence].
  - intros [(k & w & j & q & A & E & C & D & F) Hp].
    destruct (v_del_seqs_spec (having (fun q => p (q_proc q)) (s_seq s)) (v_del_concs (having (fun q => p (ci_proc q)) (s_con s)) w)) as (N & _ & _ & S).
    destruct (v_del_concs_spec (having (fun q => p (ci_proc q)) (s_con s)) w) as (N' & S' & _).
    exists k, (v_del_seqs (having (fun q => p (q_proc q)) (s_seq s)) (v_del_concs (having (fun q => p (ci_proc q)) (s_con s)) w)), j, q.
    rewrite B, A. split; [reflexivity|]. split; [congruence|]. split.
    + apply S. rewrite S'. split; [exact C|]. intros Hh. apply in_having in Hh. destruct Hh as (x & Hx & Hpx). congruence.
    + rewrite remove_process_seq, D. rewrite F, Hp. auto.
Qed.
Lemma OS_remove p s y : inv s -> OS (fst (remove_process p s)) y <-> OS s y /\ p (fst y) = false.
Proof.
  intros Hi. destruct (remove_process_spec p s) as (_ & B & Cn). cbv zeta in *. split.
  - intros (k & w & j & q & A & E & C & D & F). rewrite B in A. destruct (get (s_svc s) k) as [v|] eqn:Ev; [|discriminate]. injection A as <-.
    destruct (v_del_seqs_spec (having (fun q => p (q_proc q)) (s_seq s)) (v_del_concs (having (fun q => p (ci_proc q)) (s_con s)) v)) as (N & S & _ & _).
    destruct (v_del_concs_spec (having (fun q => p (ci_proc q)) (s_con s)) v) as (N' & _ & S'). rewrite S in C. apply S' in C. destruct C as [C Hn]. cbn [cc_id] in Hn.
    rewrite Cn in D. destruct (mem j _) eqn:Em; [discriminate|]. 
    split; [exists k, v, j, q; repeat split; congruence || assumption|]. destruct (p (fst y)) eqn:Ep; [|reflexivity]. exfalso. apply Hn, in_having. exists q. split; [exact D|congruence].
  - intros [(k & w & j & q & A & E & C & D & F) Hp].
    destruct (v_del_seqs_spec (having (fun q => p (q_proc q)) (s_seq s)) (v_del_concs (having (fun q => p (ci_proc q)) (s_con s)) w)) as (N & S & _ & _).
    destruct (v_del_concs_spec (having (fun q => p (ci_proc q)) (s_con s)) w) as (N' & _ & S').
    assert (Hj : ~ In j (having (fun q => p (ci_proc q)) (s_con s))). { intros Hh. apply in_having in Hh. destruct Hh as (x & Hx & Hpx). congruence. }
    exists k, (v_del_seqs (having (fun q => p (q_proc q)) (s_seq s)) (v_del_concs (having (fun q => p (ci_proc q)) (s_con s)) w)), j, q.
    rewrite B, A. split; [reflexivity|]. split; [congruence|]. split.
    + rewrite S. apply S'. split; [exact C|exact Hj].
    + rewrite Cn. apply mem_false in Hj. rewrite Hj. auto.
Qed.

(* a concurrent instance is added *)
Lemma OS_add i order n hops t s c y : inv s -> dn s -> U n -> get (s_con s) i = Some c ->
  dn (add_con_service cfg i order (n, hops, t) s) /\
  (OS (add_con_service cfg i order (n, hops, t) s) y <-> OS s y \/ (y = (ci_proc c, (n, order, hops)) /\ ~ exists a b, OS s (ci_proc c, (n, a, b)))).
Proof.
  intros Hi Hd Hu Hc. unfold add_con_service. destruct (insert_service cfg _ s) as [s1 vi] eqn:E.
  destruct (insert_dn (mk_v n (if 0 <? t then Some t else None) false [] [] 0) _ _ _ Hd Hu E) as [Hd1 (v & Hv & Hn)]. cbn [v_name] in Hn. pose proof (insert_service_grows _ _ _ _ _ Hi E) as G.
  assert (HO : forall y, OS s1 y <-> OS s y) by (intros z; apply (OS_insert _ s s1 vi z G eq_refl)).
  assert (Hi1 : inv s1) by (eapply inv_grows; [| |exact G|exact Hi]; reflexivity).
  rewrite <- (gr_con _ _ _ _ G) in Hc.
  assert (Hname : forall w, v_name (v_add_conc i order hops w) = v_name w) by (intros w; unfold v_add_conc; destruct (knows_conc i w); reflexivity).
  split; [eapply dn_same; [apply same_names_upd; exact Hname|exact Hd1]|].
  assert (Hk : (exists a b, OS s (ci_proc c, (n, a, b))) <-> knows_conc i v = true).
  { unfold knows_conc. rewrite existsb_exists. split.
    - intros (a & b & HOS). apply HO in HOS. destruct HOS as (k & w & j & x & A & B & C & D & F). cbn [fst snd] in *.
      assert (k = vi) by (apply (n_uniq _ Hd1 k vi w v); congruence). subst k. assert (w = v) by congruence. subst w.
      assert (j = i) by (apply (i_cipc _ Hi1 j i x c); congruence). subst j. exists (mk_cc i a b). split; [exact C|apply Nat.eqb_refl].
    - intros ([j a b] & Hin & Hj). cbn in Hj. apply Nat.eqb_eq in Hj. subst j. exists a, b. apply HO. exists vi, v, i, c. repeat split; auto. }
  rewrite Hk, <- HO. clear Hk HO. unfold v_add_conc. split.
  - intros (k & w & j & x & A & B & C & D & F). cbn [with_svc s_svc s_con] in A, D. rewrite get_upd in A. destruct (Nat.eqb_spec k vi) as [->|].
    + rewrite Hv in A. injection A as <-. destruct (knows_conc i v) eqn:Ek; [left; exists vi, v, j, x; auto|]. cbn [prioritize v_conc v_name] in B, C.
      apply cc_insert_in in C. destruct C as [C|C]; [|left; exists vi, v, j, x; auto]. right. split; [|discriminate]. injection C as -> C1 C2.
      destruct y as [h [[o a] b]]. cbn [fst snd] in *. assert (x = c) by congruence. subst x. congruence.
    + left. exists k, w, j, x. auto.
  - intros [H | [-> Hne]].
    + destruct H as (k & w & j & x & A & B & C & D & F). exists k, (if Nat.eqb k vi then v_add_conc i order hops w else w), j, x. cbn [with_svc s_svc s_con]. rewrite get_upd.
      destruct (Nat.eqb_spec k vi) as [->|]; [|auto 6]. rewrite A. split; [reflexivity|]. rewrite Hname. repeat split; auto.
      unfold v_add_conc. destruct (knows_conc i w); [exact C|]. cbn [prioritize v_conc]. apply cc_insert_in. auto.
    + exists vi, (v_add_conc i order hops v), i, c. cbn [with_svc s_svc s_con fst snd]. rewrite get_upd, Nat.eqb_refl, Hv. split; [reflexivity|]. rewrite Hname. repeat split; auto.
      unfold v_add_conc. destruct (knows_conc i v); [congruence|]. cbn [prioritize v_conc]. apply cc_insert_in. auto.
Qed.
Lemma AS_add_con i order x s y : inv s -> AS (add_con_service cfg i order x s) y <-> AS s y.
Proof.
  intros Hi. destruct x as [[n hops] t]. unfold add_con_service. destruct (insert_service cfg _ s) as [s1 vi] eqn:E. pose proof (insert_service_grows _ _ _ _ _ Hi E) as G.
  rewrite <- (AS_insert _ s s1 vi y G eq_refl). split; apply AS_eq; cbn [with_svc s_svc s_seq]; try (intros; eauto; fail); intros k v; rewrite get_upd; destruct (Nat.eqb_spec k vi) as [->|]; eauto.
  - destruct (get (s_svc s1) vi) as [w|]; [|discriminate]. intros [= <-]. exists w. unfold v_add_conc. destruct (knows_conc i w); auto.
  - intros ->. eexists. split; [reflexivity|]. unfold v_add_conc. destruct (knows_conc i v); auto.
Qed.
End Dir.
