(* The deadline a lookup is given is the earliest of the caller's and the service's. *)
From Coq Require Import ZArith List Bool Lia.
From Verif Require Import FanModel SvcModel SvcSpec SvcLemmas SvcInv SvcDead.
Import ListNotations.
Local Open Scope Z_scope.

Lemma send_reply_out e r d dl s x : In x (snd (send_reply e r d dl s)) -> x = O_idle r d dl \/ exists i, x = O_lost i.
Proof.
  unfold send_reply. rewrite then_eq. cbn [snd fst]. intros [H|H]; [left; congruence|]. destruct (e_gone _ _); [|destruct H]. unfold lost in H. cbn in H. right. destruct H as [<-|[]]. eauto.
Qed.
Lemma calc_earliest s e r vi v : lookup_name (r_name r) s = Some vi -> get (s_svc s) vi = Some v ->
  match calculate_deadline v (e_now e) (r_deadline r) with Some d => earliest (limit s e r) d | None => forall z, ~ limit s e r z end.
Proof.
  intros Hn Hv. assert (Hl : forall z, limit s e r z <-> r_deadline r = Some z \/ exists T, v_timeout v = Some T /\ 0 < T /\ z = e_now e + T).
  { intros z. unfold limit. split; (intros [H|H]; [left; exact H|right]).
    - destruct H as (vi' & v' & T & H1 & H2 & H3). rewrite Hn in H1. injection H1 as <-. rewrite Hv in H2. injection H2 as <-. eauto.
    - destruct H as (T & H). exists vi, v, T. auto. }
  unfold calculate_deadline, earliest. destruct (v_timeout v) as [T|].
  - destruct (Z.ltb_spec 0 T) as [HT|HT].
    + destruct (r_deadline r) as [c|].
      * destruct (Z.ltb_spec (e_now e + T) c); (split; [apply Hl; eauto|]); intros z Hz; apply Hl in Hz; destruct Hz as [[= <-]|(T' & [= <-] & _ & ->)]; lia.
      * split; [apply Hl; eauto|]. intros z Hz. apply Hl in Hz. destruct Hz as [Hz|(T' & [= <-] & _ & ->)]; [discriminate|lia].
    + destruct (r_deadline r) as [c|].
      * split; [apply Hl; auto|]. intros z Hz. apply Hl in Hz. destruct Hz as [[= <-]|(T' & [= <-] & ? & ->)]; lia.
      * intros z Hz. apply Hl in Hz. destruct Hz as [Hz|(T' & [= <-] & ? & ->)]; [discriminate|lia].
  - destruct (r_deadline r) as [c|].
    + split; [apply Hl; auto|]. intros z Hz. apply Hl in Hz. destruct Hz as [[= <-]|(T' & ? & _)]; [lia|discriminate].
    + intros z Hz. apply Hl in Hz. destruct Hz as [Hz|(T' & ? & _)]; discriminate.
Qed.

Lemma dead_find_in c l x : dead_find c l = Some x -> In (d_when x, c) (dmap l).
Proof.
  intros H. unfold dead_find in H. apply find_some in H. destruct H as [H1 H2]. apply Z.eqb_eq in H2. unfold dmap. apply in_map_iff. exists x. split; [unfold dpair; f_equal; exact H2|exact H1].
Qed.

Lemma deadline_given cfg l t s e r x dl : reaches cfg l t s -> (forall d, ~ In (d, r_corr r) (announced t)) -> In x (snd (step cfg e (I_lookup r) s)) ->
  ((exists d, x = O_queued r (Some d) /\ dl = Some d) \/ (exists h, x = O_idle r (D_seq h) dl \/ x = O_idle r (D_con h) dl)) ->
  match dl with Some d => earliest (limit s e r) d | None => forall z, ~ limit s e r z end.
Proof.
  intros R Hf Hin Hx. destruct (reaches_dd _ _ _ _ R) as (Hi & [_ Hout _ _]). cbn [step] in Hin. pose proof (lookup_looked cfg e r s Hi) as L. destruct (lookup cfg e r s) as [s' o']. cbn [fst snd] in L, Hin.
  inversion L as [? E1 E2|o ? Ho E1 E2|d vi v ? Hn Hv ? Hc ? E1 E2|? ? E1 E2|vi v i c s1 Hn Hv ? ? ? ? ? E1 E2|vi v i q d dl' tm s1 Hn Hv ? ? ? D ? E1 E2]; clear L.
  - rewrite <- E2 in Hin. destruct Hin as [<-|[]]. destruct Hx as [(d & Hx & _)|(h & [Hx|Hx])]; discriminate.
  - rewrite <- E2 in Hin. apply in_app_iff in Hin. destruct Hin as [Hin|[<-|[]]].
    + destruct Ho as [->|(n & ->)]; [destruct Hin|]. destruct Hin as [<-|[]]. destruct Hx as [(d & Hx & _)|(h & [Hx|Hx])]; discriminate.
    + destruct Hx as [(d & Hx & _)|(h & [Hx|Hx])]; discriminate.
  - rewrite <- E2 in Hin. destruct Hin as [<-|[]]. destruct Hx as [(d' & Hx & ->)|(h & [Hx|Hx])]; try discriminate. injection Hx as <-.
    pose proof (calc_earliest s e r vi v Hn Hv) as C. rewrite Hc in C. exact C.
  - rewrite <- E2 in Hin. destruct Hin as [<-|[]]. destruct Hx as [(d & Hx & _)|(h & [Hx|Hx])]; discriminate.
  - rewrite <- E2 in Hin. apply send_reply_out in Hin. destruct Hin as [->|(j & ->)]; [|destruct Hx as [(d & Hx & _)|(h & [Hx|Hx])]; discriminate].
    destruct Hx as [(d & Hx & _)|(h & [Hx|Hx])]; try discriminate. injection Hx as _ <-. exact (calc_earliest s e r vi v Hn Hv).
  - rewrite <- E2 in Hin. apply send_reply_out in Hin. destruct Hin as [->|(j & ->)]; [|destruct Hx as [(d' & Hx & _)|(h & [Hx|Hx])]; discriminate].
    destruct Hx as [(d' & Hx & _)|(h & [Hx|Hx])]; try discriminate. injection Hx as _ <-. pose proof (calc_earliest s e r vi v Hn Hv) as C. inversion D as [x0 Hk|d0 Hk Hc|Hk Hc]; subst.
    + exfalso. apply (Hf (d_when x0)). apply Hout. apply dead_find_in, Hk.
    + rewrite Hc in C. exact C.
    + rewrite Hc in C. exact C.
Qed.
