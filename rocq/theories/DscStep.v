(* The discovery: every step keeps it in order, and all that is sent is as claimed. *)
From Coq Require Import ZArith List Bool Lia.
From Verif Require Import DscModel DscSpec DscProofs DscHold DscEnv DscDyn DscOps DscMove.
Import ListNotations.
Local Open Scope Z_scope.

(* the lookups have nothing to do with what is known *)
Definition on_known (K : list known) (r : state * list effect) : state * list effect := (with_known K (fst r), snd r).
Lemma ask_known K f ps : forall s, ask f ps (with_known K s) = let '(s', ev, ws) := ask f ps s in (with_known K s', ev, ws).
Proof.
  induction ps as [|p ps IH]; intro s; cbn [ask]; [auto|]. change (gone (p_ipc p) (with_known K s)) with (gone (p_ipc p) s). destruct (gone (p_ipc p) s); [apply IH|].
  change (with_next (s_next (with_known K s) + 1) (with_known K s)) with (with_known K (with_next (s_next s + 1) s)). rewrite IH. destruct (ask f ps _) as [[s' ev] ws]. reflexivity.
Qed.
Lemma add_disc_known K d s : add_disc d (with_known K s) = on_known K (add_disc d s).
Proof. unfold add_disc, on_known. destruct (all_failed _); reflexivity. Qed.
Lemma aggregate_known K reqs c s : aggregate reqs c (with_known K s) = on_known K (aggregate reqs c s).
Proof.
  unfold aggregate. destruct reqs as [|r l]; [reflexivity|]. change (s_config (with_known K s)) with (s_config s). change (with_ability ADiscover (with_known K s)) with (with_ability ADiscover s). destruct (normal _ _) as [|n w].
  - rewrite add_disc_known. destruct (add_disc _ s). reflexivity.
  - rewrite ask_known. destruct (ask _ _ s) as [[s' ev] ws]. rewrite add_disc_known. destruct (add_disc _ s'). reflexivity.
Qed.
Lemma look_done_known K l s : look_done l (with_known K s) = on_known K (look_done l s).
Proof. unfold look_done. destruct (negb _); [reflexivity|]. destruct (includes _ _); [reflexivity|]. change (accumulating (with_known K s)) with (accumulating s). destruct (accumulating s); [reflexivity|]. apply aggregate_known. Qed.
Lemma each_known K l : forall s, each look_done l (with_known K s) = on_known K (each look_done l s).
Proof. induction l as [|x l IH]; intro s; cbn [each]; [reflexivity|]. rewrite look_done_known. destruct (look_done x s) as [s1 e1]. cbn [on_known fst snd]. rewrite IH. destruct (each look_done l s1) as [s2 e2]. reflexivity. Qed.
Lemma look_done_keeps l s : s_known (fst (look_done l s)) = s_known s.
Proof. assert (E : look_done l (with_known (s_known s) s) = on_known (s_known s) (look_done l s)) by apply look_done_known. destruct s. cbn in *. unfold with_known in E at 1. cbn in E. rewrite E. reflexivity. Qed.
Lemma each_keeps l : forall s, s_known (fst (each look_done l s)) = s_known s.
Proof. induction l as [|x l IH]; intro s; cbn [each]; [auto|]. pose proof (look_done_keeps x s) as A. destruct (look_done x s) as [s1 e1]. specialize (IH s1). destruct (each look_done l s1) as [s2 e2]. cbn [fst] in *. congruence. Qed.

Section Step.
Variables (s : state) (h : history) (i : input).
Hypotheses (R : reach s h) (P : possible h i) (N : env h s) (Y : dyn h s).
Let ev := snd (step i s).
Let H := h ++ [(i, ev)].
Notation Good := (good h i ev).
Lemma shown_all : shown ev (snd (handle i s)).
Proof. intros e I A. unfold ev. rewrite step_snd. apply filter_In. split; [auto|]. destruct e; auto; destruct (A eq_refl). Qed.
Lemma env_before : env H (before i s).
Proof. now apply env_step. Qed.

Lemma plain_good : (forall e, asked_of e <> None -> ends i e = false) -> dyn H s.
Proof. intro E. now apply dyn_stay. Qed.
Lemma with_good s' l : (forall e, asked_of e <> None -> ends i e = false) -> fixed s' = fixed (before i s) -> (s_disc s', s_look s', s_known s', s_acc s', s_next s') = (s_disc s, s_look s, s_known s, s_acc s, s_next s) -> Forall (fine h i H) l -> Good (s', l).
Proof.
  intros E F D L. split; [|split; [apply (env_fixed H (before i s)); [auto|apply env_before]|auto]]. cbn [fst]. injection D as D1 D2 D3 D4 D5. destruct (plain_good E). split; rewrite ?D1, ?D2, ?D3, ?D4, ?D5; auto.
Qed.

Lemma keys_split {A} (k : A -> list Z) a x b : NoDup (flat_map k (a ++ x :: b)) -> NoDup (flat_map k (a ++ b)) /\ NoDup (k x) /\ (forall z, In z (k x) -> ~ In z (flat_map k (a ++ b))) /\ (forall z, In z (flat_map k (a ++ b)) -> In z (flat_map k (a ++ x :: b))) /\ (forall z, In z (k x) -> In z (flat_map k (a ++ x :: b))).
Proof.
  rewrite !flat_map_app. cbn. intro D. destruct (nodup_parts _ _ D) as (D1 & D2 & D3). destruct (nodup_parts _ _ D2) as (D4 & D5 & D6). split; [apply nodup_app; auto; intros z I J; apply (D3 z I), in_app_iff; auto|]. split; [auto|]. split; [|split].
  - intros z I J. apply in_app_iff in J as [J|J]; [apply (D3 z J), in_app_iff; auto|now apply (D6 z I)].
  - intros z I. rewrite !in_app_iff in *. tauto.
  - intros z I. rewrite !in_app_iff. tauto.
Qed.
Lemma keys_change {A} (k : A -> list Z) a x y b : NoDup (flat_map k (a ++ x :: b)) -> NoDup (k y) -> (forall z, In z (k y) -> In z (k x)) -> NoDup (flat_map k (a ++ y :: b)) /\ (forall z, In z (flat_map k (a ++ y :: b)) -> In z (flat_map k (a ++ x :: b))).
Proof.
  rewrite !flat_map_app. cbn. intros D Ny S. destruct (nodup_parts _ _ D) as (D1 & D2 & D3). destruct (nodup_parts _ _ D2) as (D4 & D5 & D6). split.
  - apply nodup_app; auto; [apply nodup_app; auto; intros z I; apply D6; auto|]. intros z I J. apply (D3 z I). rewrite in_app_iff in *. destruct J; auto.
  - intros z I. rewrite !in_app_iff in *. destruct I as [I|[I|I]]; auto.
Qed.

Lemma look_reply_good k c : i = LookReply k c -> Good (look_reply k c s).
Proof.
  intro I. assert (V : shown ev (snd (look_reply k c s))) by (pose proof shown_all as V; rewrite I in V; exact V). assert (C : configured H = configured h) by (unfold H; rewrite configured_snoc, I; auto). assert (L : forall p, lost p H -> lost p h) by (intros p; unfold H, lost; rewrite inputs_snoc, in_snoc, I; intros [?|E]; [auto|discriminate]).
  pose proof env_before as E. assert (B : before i s = s) by (rewrite I; auto). rewrite B in E. clear B.
  assert (Sd : forall d, okd h d -> okd H d). { intros d O. apply okd_stay; auto. intros k' p w _. rewrite I. reflexivity. }
  assert (Sk : forall d, okk h d -> okk H d). { intros d O. apply okk_stay; auto. intros k' p _. rewrite I. reflexivity. }
  assert (Sl : forall l, okl h l -> ~ In k (map fst (l_wait l)) -> okl H l). { intros l O X. apply okl_stay; auto. intros k' p b w J. rewrite I. cbn. apply Z.eqb_neq. intros ->. apply X. now apply (in_map fst) in J. }
  destruct Y as [D1 D2 D3 D4 D5 D6 D7 D8]. unfold look_reply in *. cbv zeta in *. destruct (find _ (s_look s)) as [l|] eqn:F.
  - destruct (find_first _ (fun l => Look (drop_wait k (l_wait l)) (plus (l_have l) c) (l_req l)) _ _ F) as (a & b & El & Er & Eo & Fl). cbn [l_wait] in *. rewrite Er, Eo in *. rewrite El in D2, D6. apply waits_in in Fl.
    assert (Hab : forall z, In z (a ++ b) -> In z (a ++ l :: b)) by (intros z J; rewrite in_app_iff in *; cbn; tauto).
    destruct (keys_split (fun d => map fst (l_wait d)) _ _ _ D6) as (K1 & K2 & K3 & K4 & K5). destruct (D2 l) as [W O]; [apply in_app_iff; cbn; auto|]. set (l' := Look (drop_wait k (l_wait l)) (plus (l_have l) c) (l_req l)) in *.
    assert (O' : okl H l').
    { apply (okl_move h i ev l); auto.
      - intros n J. apply plus_names. auto.
      - destruct O as (_ & _ & _ & T). intros n x J. apply plus_in in J as [J|J]; [now apply told_here_mono, T|]. exists k, c. unfold H. rewrite inputs_snoc, in_snoc, I. auto.
      - intros k' p J. apply drop_in in J as [J1 J2]. split; [auto|]. intros b' w'. rewrite I. cbn. apply Z.eqb_neq. auto.
      - intros k' p J. destruct (Z.eq_dec k' k) as [->|Q]; [|left; now apply drop_in]. right. split; [intros; rewrite I; cbn; apply Z.eqb_refl|]. intros n X Z. apply X. rewrite I in Z. cbn in Z. apply plus_names. auto. }
    assert (Oab : forall x, In x (a ++ b) -> l_wait x <> [] /\ okl H x). { intros x J. destruct (D2 x (Hab x J)) as [W' O'']. split; [auto|]. apply Sl; auto. intro Q. apply (K3 k Fl). apply in_flat_map. eauto. }
    destruct (drop_wait k (l_wait l)) as [|w0 ws0] eqn:Ew.
    + apply look_done_ok; auto.
      * split; cbn [with_look s_disc s_look s_known s_acc s_next]; auto; [intros d J; destruct (D1 d J); auto|intros d J; destruct (D3 d J); auto|now apply okacc_mono|]. intros k' J. apply D8. destruct J as [J|[J|J]]; auto. right. left. rewrite El. now apply K4.
      * apply (env_fixed H s); auto.
    + destruct (keys_change (fun d => map fst (l_wait d)) _ _ l' _ D6) as (C1 & C2). { cbn [l' l_wait]. rewrite <- Ew. now apply nodup_filter_map. } { intros z J. cbn [l' l_wait] in J. rewrite <- Ew in J. now apply drop_keys in J. }
      split; [|split; [apply (env_fixed H s); auto|constructor]]. cbn [fst]. split; cbn [with_look s_disc s_look s_known s_acc s_next]; auto.
      * intros d J; destruct (D1 d J); auto.
      * intros x J. apply in_app_iff in J as [J|[<-|J]]; [apply Oab, in_app_iff; auto|split; [discriminate|auto]|apply Oab, in_app_iff; auto].
      * intros d J; destruct (D3 d J); auto.
      * now apply okacc_mono.
      * intros k' J. apply D8. destruct J as [J|[J|J]]; auto. right. left. rewrite El. now apply C2.
  - split; [|split; [auto|constructor]]. cbn [fst]. split; auto.
    + intros d J; destruct (D1 d J); auto.
    + intros l J. destruct (D2 l J). split; [auto|]. apply Sl; auto. apply waits_not. exact (find_none _ _ F l J).
    + intros d J; destruct (D3 d J); auto.
    + now apply okacc_mono.
Qed.
Lemma known_reply_good k w : i = KnownReply k w -> Good (known_reply k w s).
Proof.
  intro I. assert (V : shown ev (snd (known_reply k w s))) by (pose proof shown_all as V; rewrite I in V; exact V). assert (C : configured H = configured h) by (unfold H; rewrite configured_snoc, I; auto). assert (L : forall p, lost p H -> lost p h) by (intros p; unfold H, lost; rewrite inputs_snoc, in_snoc, I; intros [?|E]; [auto|discriminate]).
  pose proof env_before as E. assert (B : before i s = s) by (rewrite I; auto). rewrite B in E. clear B.
  assert (Sd : forall d, okd h d -> okd H d). { intros d O. apply okd_stay; auto. intros k' p w' _. rewrite I. reflexivity. }
  assert (Sk : forall d, okl h d -> okl H d). { intros d O. apply okl_stay; auto. intros k' p b' w' _. rewrite I. reflexivity. }
  assert (Sl : forall l, okk h l -> ~ In k (map fst (k_wait l)) -> okk H l). { intros l O X. apply okk_stay; auto. intros k' p J. rewrite I. cbn. apply Z.eqb_neq. intros ->. apply X. now apply (in_map fst) in J. }
  destruct Y as [D1 D2 D3 D4 D5 D6 D7 D8]. unfold known_reply in *. cbv zeta in *. destruct (find _ (s_known s)) as [l|] eqn:F.
  - destruct (find_first _ (fun x => Known (drop_wait k (k_wait x)) (union (k_have x) w) (k_goal x)) _ _ F) as (a & b & El & Er & Eo & Fl). cbn [k_wait] in *. rewrite Er, Eo in *. rewrite El in D3, D7. apply waits_in in Fl.
    assert (Hab : forall z, In z (a ++ b) -> In z (a ++ l :: b)) by (intros z J; rewrite in_app_iff in *; cbn; tauto).
    destruct (keys_split (fun d => map fst (k_wait d)) _ _ _ D7) as (K1 & K2 & K3 & K4 & K5). destruct (D3 l) as [W O]; [apply in_app_iff; cbn; auto|]. set (l' := Known (drop_wait k (k_wait l)) (union (k_have l) w) (k_goal l)) in *.
    assert (O' : okk H l').
    { apply (okk_move h i ev l); auto.
      - intros n J. apply union_in. auto.
      - destruct O as (_ & T & _). intros n J. unfold H. rewrite inputs_snoc. apply union_in in J as [J|J]; [destruct (T n J) as (k' & w' & T1 & T2); exists k', w'; rewrite in_snoc; auto|]. exists k, w. rewrite in_snoc, I. auto.
      - intros k' p J. apply drop_in in J as [J1 J2]. split; [auto|]. rewrite I. cbn. apply Z.eqb_neq. auto.
      - intros k' p J. destruct (Z.eq_dec k' k) as [->|Q]; [|left; now apply drop_in]. right. split; [intros; rewrite I; cbn; apply Z.eqb_refl|]. intros n X Z. apply X. rewrite I in Z. cbn in Z. apply union_in. auto. }
    assert (Oab : forall x, In x (a ++ b) -> k_wait x <> [] /\ okk H x). { intros x J. destruct (D3 x (Hab x J)) as [W' O'']. split; [auto|]. apply Sl; auto. intro Q. apply (K3 k Fl). apply in_flat_map. eauto. }
    destruct (drop_wait k (k_wait l)) as [|w0 ws0] eqn:Ew.
    + apply known_done_ok; auto.
      * split; cbn [with_known s_disc s_look s_known s_acc s_next]; auto; [intros d J; destruct (D1 d J); auto|intros d J; destruct (D2 d J); auto|now apply okacc_mono|]. intros k' J. apply D8. destruct J as [J|[J|J]]; auto. right. right. rewrite El. now apply K4.
      * apply (env_fixed H s); auto.
    + destruct (keys_change (fun d => map fst (k_wait d)) _ _ l' _ D7) as (C1 & C2). { cbn [l' k_wait]. rewrite <- Ew. now apply nodup_filter_map. } { intros z J. cbn [l' k_wait] in J. rewrite <- Ew in J. now apply drop_keys in J. }
      split; [|split; [apply (env_fixed H s); auto|constructor]]. cbn [fst]. split; cbn [with_known s_disc s_look s_known s_acc s_next]; auto.
      * intros d J; destruct (D1 d J); auto.
      * intros d J; destruct (D2 d J); auto.
      * intros x J. apply in_app_iff in J as [J|[<-|J]]; [apply Oab, in_app_iff; auto|split; [discriminate|auto]|apply Oab, in_app_iff; auto].
      * now apply okacc_mono.
      * intros k' J. apply D8. destruct J as [J|[J|J]]; auto. right. right. rewrite El. now apply C2.
  - split; [|split; [auto|constructor]]. cbn [fst]. split; auto.
    + intros d J; destruct (D1 d J); auto.
    + intros d J; destruct (D2 d J); auto.
    + intros l J. destruct (D3 l J). split; [auto|]. apply Sl; auto. apply waits_not. exact (find_none _ _ F l J).
    + now apply okacc_mono.
Qed.
Lemma empty_nil {A} (l : list A) : empty l = true <-> l = [].
Proof. destruct l; cbn; split; congruence. Qed.
Lemma keys_filter {A B} (k : A -> list Z) (f : A -> bool) (m : B -> A) (k' : B -> list Z) (l : list B) : (forall x z, In z (k (m x)) -> In z (k' x)) -> (forall x, NoDup (k' x) -> NoDup (k (m x))) -> NoDup (flat_map k' l) ->
  NoDup (flat_map k (filter f (map m l))) /\ forall z, In z (flat_map k (filter f (map m l))) -> In z (flat_map k' l).
Proof.
  intros S D. induction l as [|x l IH]; cbn; intro Q; [split; [constructor|auto]|]. destruct (nodup_parts _ _ Q) as (Q1 & Q2 & Q3). destruct (IH Q2) as [A1 A2]. destruct (f (m x)); cbn.
  - split; [apply nodup_app; auto; intros z J K; apply (Q3 z); auto|]. intros z J. apply in_app_iff. apply in_app_iff in J as [J|J]; auto.
  - split; [auto|]. intros z J. apply in_app_iff. auto.
Qed.
Lemma failed_good f : (forall p, DscSpec.fails i p = f p) -> (forall p k w, ends i (Ask p k w) = f p) -> (forall p k b w, ends i (AskLook p k b w) = f p) -> (forall p k, ends i (AskKnown p k) = f p) ->
  (forall c n, ~ hears c i n) -> (forall c n, ~ says_name c i n) -> configured H = configured h -> (forall p, lost p H -> lost p h) -> before i s = with_providers (filter (fun v => negb (f (v_proc v))) (s_providers s)) s -> handle i s = failed f s -> Good (failed f s).
Proof.
  intros F0 F1 F2 F3 T1 T2 C L B Eh. pose proof shown_all as V. rewrite Eh in V. pose proof env_before as E. rewrite B in E. destruct Y as [D1 D2 D3 D4 D5 D6 D7 D8]. unfold failed in *. set (s1 := with_providers _ s) in *.
  pose proof (disc_failed_ok h i ev f (s_disc s)) as Df. change (s_disc s1) with (s_disc s) in *. destruct (disc_failed f (s_disc s)) as [ds evd]. destruct Df as (A1 & A2 & A3 & A4); auto. { intros e p k w ->. apply F1. } { intros d J. now apply D1. }
  unfold Good. rewrite bind_fst, bind_snd in *. cbn [fst snd] in *. rewrite bind_fst, bind_snd in *. set (sA := with_disc ds s1) in *. apply shown_app in V as [V1 V]. apply shown_app in V as [V2 V3].
  set (ml := fun l => Look (DscModel.fails f (l_wait l)) (l_have l) (l_req l)) in *. set (mk := fun x => Known (DscModel.fails f (k_wait x)) (k_have x) (k_goal x)) in *.
  set (lD := filter (fun l => empty (l_wait l)) (map ml (s_look s))). set (lK := filter (fun l => negb (empty (l_wait l))) (map ml (s_look s))). set (kD := filter (fun l => empty (k_wait l)) (map mk (s_known s))). set (kK := filter (fun l => negb (empty (k_wait l))) (map mk (s_known s))).
  set (sB := with_known kK (with_look lK sA)).
  assert (El : look_failed f sA = each look_done lD (with_look lK sA)) by reflexivity. assert (Ek : known_failed f (fst (look_failed f sA)) = each known_done kD (with_known kK (fst (look_failed f sA)))). { unfold known_failed. rewrite El, each_keeps. reflexivity. }
  assert (Eb : each look_done lD sB = on_known kK (look_failed f sA)) by (unfold sB; rewrite each_known, El; reflexivity).
  assert (Ol : forall l, In l (map ml (s_look s)) -> okl H l).
  { intros l J. apply in_map_iff in J as (l0 & <- & J). destruct (D2 l0 J) as [_ O]. apply (okl_move h i ev l0); auto.
    - destruct O as (_ & _ & _ & T). intros n x K. now apply told_here_mono, T.
    - cbn [ml l_wait]. intros k p K. apply fails_in in K as [K1 K2]. split; [auto|]. intros. rewrite F2. auto.
    - cbn [ml l_wait]. intros k p K. destruct (f p) eqn:Fp; [|left; now apply fails_in]. right. split; [intros; rewrite F2; auto|auto]. }
  assert (Ok : forall x, In x (map mk (s_known s)) -> okk H x).
  { intros x J. apply in_map_iff in J as (x0 & <- & J). destruct (D3 x0 J) as [_ O]. apply (okk_move h i ev x0); auto.
    - destruct O as (_ & T & _). intros n K. destruct (T n K) as (k' & w' & T1' & T2'). exists k', w'. unfold H. rewrite inputs_snoc, in_snoc. auto.
    - cbn [mk k_wait]. intros k p K. apply fails_in in K as [K1 K2]. split; [auto|]. rewrite F3. auto.
    - cbn [mk k_wait]. intros k p K. destruct (f p) eqn:Fp; [|left; now apply fails_in]. right. split; [intros; rewrite F3; auto|auto]. }
  destruct (keys_filter (fun l => map fst (l_wait l)) (fun l => negb (empty (l_wait l))) ml (fun l => map fst (l_wait l)) (s_look s)) as [Kl1 Kl2]; auto. { intros x z J. cbn [ml l_wait] in J. apply in_map_iff in J as ([k p] & <- & J). apply fails_in in J as [J _]. now apply (in_map fst) in J. } { intros x J. cbn [ml l_wait]. now apply nodup_filter_map. }
  destruct (keys_filter (fun l => map fst (k_wait l)) (fun l => negb (empty (k_wait l))) mk (fun l => map fst (k_wait l)) (s_known s)) as [Kk1 Kk2]; auto. { intros x z J. cbn [mk k_wait] in J. apply in_map_iff in J as ([k p] & <- & J). apply fails_in in J as [J _]. now apply (in_map fst) in J. } { intros x J. cbn [mk k_wait]. now apply nodup_filter_map. }
  assert (YB : dyn H sB).
  { split; cbn [sB with_known with_look sA with_disc s1 with_providers s_disc s_look s_known s_acc s_next]; auto.
    - intros l J. apply filter_In in J as [J K]. split; [|auto]. intro Q. apply empty_nil in Q. rewrite Q in K. discriminate.
    - intros l J. apply filter_In in J as [J K]. split; [|auto]. intro Q. apply empty_nil in Q. rewrite Q in K. discriminate.
    - now apply okacc_mono.
    - intros k [J|[J|J]]; apply D8; auto. }
  assert (EB : env H sB) by (apply (env_fixed H s1); auto).
  assert (G1 : Good (each look_done lD sB)).
  { apply each_ok; auto.
    - intros x s' J Ys Es Vs. apply filter_In in J as [J K]. apply look_done_ok; auto. now apply empty_nil.
    - rewrite Eb. exact V2. }
  rewrite Eb in G1. destruct G1 as (G1 & G2 & G3). cbn [on_known fst snd] in *.
  assert (G4 : Good (known_failed f (fst (look_failed f sA)))).
  { rewrite Ek. apply each_ok; auto.
    - intros x s' J Ys Es Vs. apply filter_In in J as [J K]. apply known_done_ok; auto. now apply empty_nil.
    - rewrite <- Ek. exact V3. }
  destruct G4 as (G4 & G5 & G6). split; [auto|]. split; [auto|]. apply Forall_app. split; [auto|]. apply Forall_app. auto.
Qed.
End Step.

Lemma no_ends (i : input) : (match i with DiscReply _ _ | LookReply _ _ | KnownReply _ _ | Dead _ | Destroyed _ => False | _ => True end) -> forall e, asked_of e <> None -> ends i e = false.
Proof. intros X e Q. destruct i; try (destruct X; fail); destruct e; auto; destruct (Q eq_refl). Qed.
Lemma answer_nothing h i ev r : arrived r (h ++ [(i, ev)]) -> (forall n, In n (r_want r) -> down h) -> fine h i (h ++ [(i, ev)]) (Answer (r_api r) (r_ipc r) (r_corr r) []).
Proof. intros A D. cbn. exists r. split; [auto|]. split; [auto|]. split; [auto|]. split; [auto|]. split; [intros n x []|]. split; [intros _ n []|]. intros n I _. left. eauto. Qed.
Lemma handle_good s h i : reach s h -> possible h i -> env h s -> dyn h s -> good h i (snd (step i s)) (handle i s).
Proof.
  intros R P N Y. pose proof (shown_all s i) as V. pose proof (env_before s h i R P N) as E. set (ev := snd (step i s)) in *. set (H := h ++ [(i, ev)]) in *.
  assert (C : match i with Begin _ _ | Configure _ _ _ => True | _ => configured H = configured h end) by (unfold H; rewrite configured_snoc; destruct i; auto).
  assert (L : match i with Lost _ => True | _ => forall p, lost p H -> lost p h end) by (destruct i; auto; intro q; unfold H, lost; rewrite inputs_snoc, in_snoc; intros [?|X]; auto; discriminate).
  assert (St : forall X : match i with DiscReply _ _ | LookReply _ _ | KnownReply _ _ | Dead _ | Destroyed _ => False | _ => True end, dyn H s) by (intro X; apply (plain_good s h i Y); now apply no_ends).
  assert (W : forall s' l, match i with DiscReply _ _ | LookReply _ _ | KnownReply _ _ | Dead _ | Destroyed _ => False | _ => True end -> fixed s' = fixed (before i s) -> (s_disc s', s_look s', s_known s', s_acc s', s_next s') = (s_disc s, s_look s, s_known s, s_acc s, s_next s) -> Forall (fine h i H) l -> good h i ev (s', l)).
  { intros s' l X. apply (with_good s h i R P N Y). now apply no_ends. }
  destruct i as [d c|p k a|r|r|p k|k c|k c|k w|p w|p ds| |pid|ipc|p k c| |b|ipc]; cbn [handle before] in *.
  - apply W; auto.
  - destruct (gone (p_ipc p) s) eqn:G; apply W; auto; try (destruct (existsb _ _); reflexivity). repeat constructor.
  - assert (A : arrived r H) by (left; unfold H; rewrite inputs_snoc, in_snoc; auto). destruct P as (_ & P1 & _). destruct (s_down s || empty (r_want r)) eqn:D.
    + apply W; auto. constructor; [|constructor]. apply answer_nothing; auto. intros n I. apply orb_true_iff in D as [D|D]; [now apply (e_down _ _ N)|]. apply empty_nil in D. rewrite D in I. destruct I.
    + specialize (St Logic.I). destruct (accumulating s).
      * apply accumulate_ok; auto. destruct (y_acc _ _ St) as (A1 & A2). split; [|auto]. cbn [acc_api a_api]. intros r' I. apply in_snoc in I as [I| ->]; auto.
      * apply aggregate_ok; auto; [intros n x []|]. intros r' [<-|[]]. split; [auto|]. split; [left; auto|]. intros. congruence.
  - assert (A : arrived r H) by (right; unfold H; rewrite inputs_snoc, in_snoc; auto). destruct P as (_ & P1 & _). destruct (s_down s) eqn:D.
    + apply W; auto. constructor; [|constructor]. apply answer_nothing; auto. intros n _. now apply (e_down _ _ N).
    + apply lookup_ok; auto.
  - apply fetch_ok; auto.
  - destruct Y as [D1 D2 D3 D4 D5 D6 D7 D8]. rewrite (e_config _ _ N) in *. pose proof (disc_reply_ok h (DiscReply k c) ev k c (s_disc s) eq_refl D1 D5) as Q. destruct (disc_reply k c (configured h) (s_disc s)) as [ds evs]. destruct Q as (Q1 & Q2 & Q3 & Q4). split; [|split; [apply (env_fixed H s); auto|auto]].
    cbn [fst]. split; cbn [with_disc s_disc s_look s_known s_acc s_next]; auto.
    + intros l I. destruct (D2 l I). split; [auto|]. apply okl_stay; auto.
    + intros l I. destruct (D3 l I). split; [auto|]. apply okk_stay; auto.
    + now apply okacc_mono.
    + intros x J. apply D8. destruct J as [J|[J|J]]; auto.
  - apply look_reply_good; auto.
  - apply known_reply_good; auto.
  - specialize (St Logic.I). destruct (s_down s) eqn:D; [apply W; auto|]. apply accumulate_ok; auto. destruct (y_acc _ _ St) as (A1 & A2 & A3 & U1 & U2). split; [auto|]. split; [auto|]. split; [auto|]. split; [|auto]. cbn [acc_direct a_direct]. intros p' w' I. apply in_snoc in I as [I|I]; [auto|]. injection I as -> ->. unfold H. rewrite inputs_snoc, in_snoc. auto.
  - specialize (St Logic.I). destruct (s_down s || _) eqn:D; [apply W; auto|]. apply accumulate_ok; auto. destruct (y_acc _ _ St) as (A1 & A2 & A3 & U1 & U2). split; [auto|]. split; [auto|]. split; [auto|]. split; [auto|]. cbn [acc_implicit a_implicit]. intros p' w' I. apply in_snoc in I as [I|I]; [auto|]. injection I as -> ->. unfold H. rewrite inputs_snoc, in_snoc. auto.
  - specialize (St Logic.I). destruct (y_acc _ _ St) as (A1 & A2 & A3 & U). unfold timeout in *. set (X := match a_direct (s_acc s) with [] => _ | _ => _ end) in *. unfold good. rewrite bind_fst, bind_snd in *. apply shown_app in V as [V1 V2]. set (s0 := with_acc acc0 false s) in *.
    assert (Y0 : dyn H s0). { destruct St. split; auto. split; [intros r []|]. split; [intros r []|]. split; [intros n x []|]. split; intros p w []. }
    assert (E0 : env H s0) by (apply (env_fixed H s); auto).
    assert (G : good h Timeout ev X).
    { unfold X in *. destruct (a_direct (s_acc s)) as [|x0 l0] eqn:Ed; [destruct (a_implicit (s_acc s)) as [|x1 l1] eqn:Ei|].
      - split; [auto|]. split; [auto|constructor].
      - apply fetch_ok; auto.
      - apply fetch_ok; auto. }
    destruct G as (G1 & G2 & G3). assert (G : good h Timeout ev (aggregate (a_api (s_acc s) ++ a_disc (s_acc s)) (a_have (s_acc s)) (fst X))).
    { apply aggregate_ok; auto; [intros n x I; left; now apply A3|]. intros r I. apply in_app_iff in I as [I|I].
      - destruct (A1 r I). split; [auto|]. split; [left; auto|]. intros. congruence.
      - destruct (A2 r I) as (B1 & B2 & B3 & B4). split; [auto|]. split; [right; auto|]. intros n _ Q _. auto. }
    destruct G as (G4 & G5 & G6). split; [auto|]. split; [auto|]. apply Forall_app. auto.
  - apply (failed_good s h (Dead pid) R P N Y); auto. + intros. cbn. now rewrite orb_false_r. + intros. cbn. now rewrite orb_false_r. + intros. cbn. now rewrite orb_false_r.
  - apply (failed_good s h (Destroyed ipc) R P N Y); auto. + intros. cbn. now rewrite orb_false_r. + intros. cbn. now rewrite orb_false_r. + intros. cbn. now rewrite orb_false_r.
  - apply W; auto. apply Forall_forall. intros e I. unfold send in I. destruct (gone p s); [destruct I|]. destruct I as [<-|[]]. exact Logic.I.
  - apply W; auto.
  - apply W; auto.
  - apply W; auto.
Qed.
Lemma dyn0 : dyn [] state0.
Proof. split; cbn; try (intros x []; fail); try constructor; try (intros r []; fail). - split; [intros r []|]. split; [intros n x []|]. split; intros p w []. - intros k [[]|[[]|[]]]. Qed.
Lemma reach_dyn s h : reach s h -> dyn h s.
Proof. induction 1 as [|s h i R IH P]; [apply dyn0|]. rewrite step_fst. now apply (handle_good s h i R P (reach_env _ _ R) IH). Qed.
Lemma reach_fine s h i ev : reach s (h ++ [(i, ev)]) -> Forall (fine h i (h ++ [(i, ev)])) ev.
Proof.
  intro R. inversion R as [E|s0 h0 i0 R0 P0 E1 E2]; [destruct h; discriminate|]. apply snoc_inj in E2 as [-> E2]. injection E2 as -> <-. destruct (handle_good s0 h i R0 P0 (reach_env _ _ R0) (reach_dyn _ _ R0)) as (_ & _ & F).
  apply Forall_forall. intros e I. rewrite Forall_forall in F. apply F. rewrite step_snd in I. now apply filter_In in I.
Qed.
