(* Two domains that discover each other: a request that none has goes back and forth. *)
From Coq Require Import ZArith List Bool Lia.
From Verif Require Import DscModel DscSpec DscProofs DscHold DscEnv DscDyn DscOps DscMove DscStep DscGoals DscTimer DscTheorems DscRun.
Import ListNotations.
Local Open Scope Z_scope.

Definition far_away : proc := Proc 9 9.
Definition plain (s : state) : Prop := s_down s = false /\ s_config s = [] /\ s_providers s = [Provider far_away [ADiscover]] /\ s_timer s = false /\ s_busy s = false /\ s_lost s = [].
Lemma plain_step s q k : plain s -> plain (fst (step (Request (Req false true q k [Svc 1])) s)) /\ snd (step (Request (Req false true q k [Svc 1])) s) = [Ask far_away (s_next s) [Svc 1]] /\ s_next (fst (step (Request (Req false true q k [Svc 1])) s)) = s_next s + 1.
Proof. destruct s as [dn sf cf pr di lo kn ac ti bu nx ls]. intros (A & B & C & D & E & F). cbn in A, B, C, D, E, F. subst. cbn. repeat split. Qed.
Definition below (h : history) (n : Z) : Prop := forall r, arrived r h -> r_corr r < n.
Lemma below_snoc h i ev n m : below h n -> n <= m -> (forall r, i = Api r \/ i = Request r -> r_corr r < m) -> below (h ++ [(i, ev)]) m.
Proof. intros B L H r [J|J]; rewrite inputs_snoc, in_snoc in J; destruct J as [J|J]; try (assert (r_corr r < n) by (apply B; red; auto); lia); apply H; auto. Qed.
Lemma below_possible h q k w : h <> [] -> below h k -> possible h (Request (Req false true q k w)).
Proof. intros N B. cbn. split; [auto|]. split; [auto|]. intros r J. assert (r_corr r < k) by (apply B; exact J). lia. Qed.
Record going (n : nat) (sa : state) (ha : history) (sb : state) (hb : history) : Prop := Going {
  go_net : net sa ha sb hb; go_a : plain sa; go_b : plain sb; go_na : ha <> []; go_nb : hb <> []; go_ba : below ha (s_next sb); go_bb : below hb (s_next sa - 1);
  go_ask : In (Ask far_away (s_next sa - 1) [Svc 1]) (effects ha); go_n : (n <= count is_ask (effects ha))%nat;
  go_api : count is_api (inputs ha ++ inputs hb) = 1%nat; go_quiet : count is_reply (effects ha ++ effects hb) = 0%nat }.
Lemma count_app {A} (p : A -> bool) a b : count p (a ++ b) = (count p a + count p b)%nat.
Proof. unfold count. now rewrite filter_app, app_length. Qed.
Lemma going_next n sa ha sb hb : going n sa ha sb hb -> exists sa' ha' sb' hb', going (S n) sa' ha' sb' hb'.
Proof.
  intros [G1 G2 G3 G4 G5 G6 G7 G8 G9 G10 G11].
  set (r := Req false true 7 (s_next sa - 1) [Svc 1]). destruct (plain_step sb 7 (s_next sa - 1) G3) as (P1 & P2 & P3). fold r in P1, P2, P3.
  assert (Q1 : possible hb (Request r)) by (now apply below_possible).
  pose proof (net_ab _ _ _ _ far_away (s_next sa - 1) [Svc 1] 7 G1 G8 Q1) as N1. cbn zeta in N1. fold r in N1. rewrite P2 in N1. set (sb' := fst (step (Request r) sb)) in *. set (hb' := hb ++ [(Request r, [Ask far_away (s_next sb) [Svc 1]])]) in *.
  set (r' := Req false true 7 (s_next sb) [Svc 1]). destruct (plain_step sa 7 (s_next sb) G2) as (P4 & P5 & P6). fold r' in P4, P5, P6.
  assert (Q2 : possible ha (Request r')) by (now apply below_possible).
  assert (J : In (Ask far_away (s_next sb) [Svc 1]) (effects hb')) by (unfold hb'; rewrite effects_snoc; apply in_app_iff; right; now left).
  pose proof (net_ba _ _ _ _ far_away (s_next sb) [Svc 1] 7 N1 J Q2) as N2. cbn zeta in N2. fold r' in N2. rewrite P5 in N2.
  eexists _, _, _, _. split; [exact N2|exact P4|exact P1|destruct ha; discriminate|destruct hb; discriminate| | | | | |].
  - rewrite P3. apply (below_snoc _ _ _ (s_next sb)); [auto|lia|]. intros x [X|X]; [discriminate|]. injection X as <-. cbn. lia.
  - rewrite P6. unfold hb'. apply (below_snoc _ _ _ (s_next sa - 1)); [auto|lia|]. intros x [X|X]; [discriminate|]. injection X as <-. cbn. lia.
  - rewrite P6, effects_snoc. apply in_app_iff. right. left. f_equal. lia.
  - rewrite effects_snoc, count_app. change (count is_ask [_]) with 1%nat. lia.
  - unfold hb'. rewrite !inputs_snoc, !count_app in *. change (count is_api [Request r]) with 0%nat. change (count is_api [Request r']) with 0%nat. lia.
  - unfold hb'. rewrite !effects_snoc, !count_app in *. change (count is_reply [_]) with 0%nat. cbn. lia.
Qed.
Definition net_l := [Begin 1 []; Register far_away 1 [ADiscover]; Api (Req true true 5 0 [Svc 1])].
Definition net_one := Eval vm_compute in made net_l.
Definition net_two := Eval vm_compute in made [Begin 2 []; Register far_away 1 [ADiscover]].
Lemma going_first : going 1 (fst net_one) (snd net_one) (fst net_two) (snd net_two).
Proof.
  split; try discriminate; try (vm_compute; repeat split; fail); try (vm_compute; auto; fail).
  - assert (N1 : net (fst (made [Begin 1 []])) (snd (made [Begin 1 []])) state0 []) by (apply (net_a state0 [] state0 [] (Begin 1 [])); [apply net_start|reflexivity|discriminate]).
    assert (N2 : net (fst (made [Begin 1 []; Register far_away 1 [ADiscover]])) (snd (made [Begin 1 []; Register far_away 1 [ADiscover]])) state0 []) by (apply (net_a _ _ _ _ (Register far_away 1 [ADiscover]) N1); [apply possible_sound; reflexivity|discriminate]).
    assert (N3 : net (fst net_one) (snd net_one) state0 []) by (apply (net_a _ _ _ _ (Api (Req true true 5 0 [Svc 1])) N2); [apply possible_sound; reflexivity|discriminate]).
    assert (N4 : net (fst net_one) (snd net_one) (fst (made [Begin 2 []])) (snd (made [Begin 2 []]))) by (apply (net_b _ _ _ _ (Begin 2 []) N3); [reflexivity|discriminate]).
    apply (net_b _ _ _ _ (Register far_away 1 [ADiscover]) N4); [apply possible_sound; reflexivity|discriminate].
  - intros r [J|J]; vm_compute in J; intuition (try discriminate). injection H as <-. cbn. lia.
  - intros r [J|J]; vm_compute in J; intuition discriminate.
Qed.
Lemma loops n : exists sa ha sb hb, net sa ha sb hb /\ count is_api (inputs ha ++ inputs hb) = 1%nat /\ count is_reply (effects ha ++ effects hb) = 0%nat /\ (n <= count is_ask (effects ha))%nat.
Proof.
  assert (H : exists sa ha sb hb, going (S n) sa ha sb hb).
  { induction n as [|n (sa & ha & sb & hb & G)]; [eexists _, _, _, _; exact going_first|]. exact (going_next _ _ _ _ _ G). }
  destruct H as (sa & ha & sb & hb & G). exists sa, ha, sb, hb. pose proof (go_n _ _ _ _ _ G). split; [apply (go_net _ _ _ _ _ G)|]. split; [apply (go_api _ _ _ _ _ G)|]. split; [apply (go_quiet _ _ _ _ _ G)|lia].
Qed.
(* the net is two domains *)
Lemma net_reach sa ha sb hb : net sa ha sb hb -> reach sa ha /\ reach sb hb.
Proof. induction 1 as [|sa ha sb hb i N [A B] P _|sa ha sb hb i N [A B] P _|sa ha sb hb p k w q r N [A B] _ P|sa ha sb hb p k w q r N [A B] _ P]; split; auto; try apply reach_start; now apply reach_step. Qed.

(* ---- updates pass a domain once ---- *)
Lemma passed_in vs ds : passed vs ds -> NoDup vs /\ forall v, In v vs -> In v ds.
Proof.
  induction 1 as [ds|vs ds s h p s' ev t q l P [IH1 IH2] R N R' I L]; [split; [constructor|intros v []]|].
  assert (F : In (self h) l).
  { apply effects_split in I as (t1 & i & ev' & t2 & -> & I). change ((ImplicitUpdate p ds, ev) :: (t1 ++ [(i, ev')]) ++ t2) with (((ImplicitUpdate p ds, ev) :: t1 ++ [(i, ev')]) ++ t2) in R'. rewrite app_assoc in R'. destruct (reach_prefix _ _ _ R') as (s2 & R2). rewrite app_comm_cons, app_assoc in R2. pose proof (reach_fine _ _ _ _ R2) as F. rewrite Forall_forall in F. destruct (F _ I) as (_ & _ & F1 & _).
    destruct (reach_h _ _ R) as [->|(d & c & e0 & t0 & E0)]; [|rewrite E0 in F1 |- *; exact F1].
    exfalso. destruct (reach_prefix s' [(ImplicitUpdate p ds, ev)] (t1 ++ [(i, ev')] ++ t2)) as (s3 & R3). { cbn [app] in R'. rewrite <- app_assoc in R'. exact R'. }
    destruct (last_step s3 [] _ _ R3) as (_ & _ & P0 & _). destruct P0 as [P0 _]. auto. }
  split; [|intros v [<-|J]; [exact F|apply L; auto]]. constructor; [|auto]. intro J. apply N. apply (been_here s h); auto.
Qed.
(* ---- small things ---- *)
Lemma arrived_one s h r r' : reach s h -> arrived r h -> arrived r' h -> r_corr r = r_corr r' -> r = r'.
Proof.
  intros R A B E. induction R as [|s h i R IH P]; [destruct A as [[]|[]]|].
  assert (C : forall x, arrived x (h ++ [(i, snd (step i s))]) -> arrived x h \/ i = Api x \/ i = Request x). { intros x [X|X]; rewrite inputs_snoc, in_snoc in X; unfold arrived; intuition. }
  apply C in A, B. destruct A as [A|[A|A]], B as [B|[B|B]]; try (now apply IH); try congruence; subst i; destruct P as (_ & _ & P); exfalso; [apply (P r A)|apply (P r A)|apply (P r' B)|apply (P r' B)]; auto.
Qed.
Lemma far_only_local s h r ev : reach s (h ++ [(Request r, ev)]) -> r_extend r = false -> forall e, In e ev -> (exists p k, e = AskLook p k true (r_want r)) \/ exists c, e = Answer (r_api r) (r_ipc r) (r_corr r) c.
Proof.
  intros R X e I. destruct (last_step _ _ _ _ R) as (s0 & _ & _ & _ & ->). rewrite step_snd in I. apply filter_In in I as [I _]. cbn in I. destruct (s_down s0); [destruct I as [<-|[]]; eauto|]. unfold lookup in I.
  rewrite X in I. cbn [negb] in I. assert (A : forall ps t, incl (snd (fst (ask (fun p k => AskLook p k true (r_want r)) ps t))) (snd (fst (ask (fun p k => AskLook p k true (r_want r)) ps t))) /\ forall e, In e (snd (fst (ask (fun p k => AskLook p k true (r_want r)) ps t))) -> exists p k, e = AskLook p k true (r_want r)).
  { induction ps as [|p ps IH]; intro t; cbn [ask]; [split; [apply incl_refl|intros x []]|]. split; [apply incl_refl|]. destruct (gone (p_ipc p) t); [apply IH|]. specialize (IH (with_next (s_next t + 1) t)) as [_ IH]. destruct (ask _ ps _) as [[t' a] ws]. cbn in *. intros x [<-|J]; eauto. }
  specialize (A (with_ability ALookup s0) s0) as [_ A]. destruct (ask _ _ s0) as [[s1 ev1] ws]. cbn [fst snd] in A. destruct ws as [|w ws].
  - unfold look_done in I. cbn [l_req] in I. rewrite X in I. cbn in I. apply in_app_iff in I as [I|[<-|[]]]; eauto.
  - cbn in I. rewrite app_nil_r in I. eauto.
Qed.
