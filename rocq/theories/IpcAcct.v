(* Accounting: every message of a key is consumed, held, or still to come. *)
From Coq Require Import ZArith List Bool Arith Lia Permutation.
From Verif Require Import IpcModel IpcSpec IpcChunk IpcProj.
Import ListNotations.

(* l: the messages with key k that the device holds complete, and those the datagrams in W will complete *)
Definition acct (ord : bool) (max : nat) (k : key) (cache : list complete) (W : list transport) (l : list msg) : Prop :=
  exists ms p rest, rep ord max ms p (proj k cache) /\ flow max k p rest (filter (t_is k) W) /\ l = ms ++ rest.

Lemma acct_weaken ord max k cache W l : acct ord max k cache W l -> acct false max k cache W l.
Proof.
  intros (ms & p & rest & R & F & ->). exists ms, p, rest. split; [|auto]. destruct p as [[m i]|]; [|exact R].
  destruct R as (a & c & b & H1 & H2 & H3 & H4 & _). exists a, c, b. repeat (split; [assumption|]). discriminate.
Qed.

Lemma sub_refl {A} (l : list A) : sub l l.
Proof. induction l; constructor; auto. Qed.
Lemma sub_app {A} (a b c d : list A) : sub a b -> sub c d -> sub (a ++ c) (b ++ d).
Proof. induction 1; intros; cbn; auto; constructor; auto. Qed.
Lemma sub_trans {A} (a b c : list A) : sub a b -> sub b c -> sub a c.
Proof.
  intros H1 H2. revert a H1. induction H2 as [|x b c H2 IH|x b c H2 IH]; intros a H1; [exact H1| |constructor; auto].
  inversion H1; subst; [apply sub_keep|apply sub_skip]; auto.
Qed.
Lemma sub_drop {A} (x : A) a b : sub (a ++ b) (a ++ x :: b).
Proof. apply sub_app; [apply sub_refl|apply sub_skip, sub_refl]. Qed.
Lemma sub_length {A} (a b : list A) : sub a b -> length a <= length b.
Proof. induction 1; cbn; lia. Qed.
Lemma sub_eq {A} (a b : list A) : sub a b -> length b <= length a -> a = b.
Proof.
  induction 1 as [|x a b H IH|x a b H IH]; intros L; [reflexivity| |].
  - f_equal. apply IH. cbn in L. lia.
  - apply sub_length in H. cbn in L. lia.
Qed.

Lemma proj_app k a b : proj k (a ++ b) = proj k a ++ proj k b.
Proof. apply filter_app. Qed.
Lemma proj_in k c l : In c (proj k l) -> c_key c = k.
Proof. unfold proj. rewrite filter_In. intros [_ H]. apply key_eqb_eq in H. auto. Qed.
Lemma m_is_msg k c : m_is k (msg_of c) = c_is k c.
Proof. reflexivity. Qed.
Lemma proj_one k c : proj k [c] = if c_is k c then [c] else [].
Proof. reflexivity. Qed.
Lemma of_key_one k m : of_key k [m] = if m_is k m then [m] else [].
Proof. reflexivity. Qed.
Lemma filter_hd t k W : filter (t_is k) (t :: W) = if t_is k t then t :: filter (t_is k) W else filter (t_is k) W.
Proof. reflexivity. Qed.

Lemma wholes l : forallb is_complete l = true -> map whole (map msg_of l) = l.
Proof.
  induction l as [|c l IH]; [reflexivity|]. cbn [forallb map]. intros H. apply andb_true_iff in H. destruct H as [Hc H]. rewrite (whole_of c Hc), (IH H). reflexivity.
Qed.
Lemma unwholes l ms : l = map whole ms -> ms = map msg_of l.
Proof. intros ->. rewrite map_map. rewrite (map_ext _ (fun x => x)) by apply whole_msg. rewrite map_id. reflexivity. Qed.
Lemma wholes_are l ms : l = map whole ms -> forallb is_complete l = true.
Proof. intros ->. apply wholes_complete. Qed.

Lemma rep_key ord max ms p k cache m : rep ord max ms p (proj k cache) -> In m ms -> m_key m = k.
Proof.
  intros R Hm. assert (Hc : In (whole m) (proj k cache)).
  { destruct p as [[m' i]|].
    - destruct R as (a & c & b & E & E2 & _). rewrite E. apply (in_map whole) in Hm. rewrite <- E2 in Hm. apply in_app_iff in Hm. apply in_app_iff. cbn. tauto.
    - cbn in R. rewrite R. apply in_map, Hm. }
  apply proj_in in Hc. exact Hc.
Qed.

(* a datagram taken from the socket *)
Lemma recv_one max t W cache : 0 < max -> (forall k, exists l, acct false max k cache (t :: W) l) ->
  exists a c b, receive t cache = Some (a, c, b) /\
    (forall ord k l, acct ord max k cache (t :: W) l -> exists l', acct ord max k (a ++ c :: b) W l' /\ Permutation l l' /\ (ord = true -> l' = l)) /\
    (is_complete c = true -> forall ord k l, acct ord max k cache (t :: W) l ->
       exists l', acct ord max k (a ++ b) W l' /\ Permutation l (of_key k [msg_of c] ++ l') /\ (ord = true -> sub l' l)).
Proof.
  intros Hm Hall. set (k0 := t_key t).
  assert (Hr : exists a c b, receive t cache = Some (a, c, b)).
  { destruct (Hall k0) as (l & ms & p & rest & R & F & _). rewrite filter_hd in F. unfold t_is at 1 in F. rewrite key_eqb_refl in F.
    destruct (recv_key false max k0 ms p rest t _ _ Hm eq_refl R F) as (a & c & b & E & _). rewrite receive_same in E. fold k0 in E.
    destruct (receive t cache) as [[[a' c'] b']|]; [eauto|discriminate]. }
  destruct Hr as (a & c & b & E). exists a, c, b. split; [exact E|].
  assert (Hsame : forall ord l, acct ord max k0 cache (t :: W) l -> exists ms p rest, l = ms ++ rest /\ move ord max k0 ms p rest (filter (t_is k0) W) (proj k0 cache) (proj k0 a) c (proj k0 b)).
  { intros ord l (ms & p & rest & R & F & ->). exists ms, p, rest. split; [reflexivity|]. rewrite filter_hd in F. unfold t_is at 1 in F. rewrite key_eqb_refl in F.
    destruct (recv_key ord max k0 ms p rest t _ _ Hm eq_refl R F) as (a' & c' & b' & E' & M). rewrite receive_same in E'. fold k0 in E'. rewrite E in E'. injection E' as <- <- <-. exact M. }
  pose proof (receive_key _ _ _ _ _ E) as Hck. fold k0 in Hck.
  assert (Hc0 : c_is k0 c = true) by (unfold c_is; rewrite Hck; apply key_eqb_refl).
  assert (Hother : forall k, k <> k0 -> t_is k t = false) by (intros k Hk; unfold t_is; fold k0; apply key_eqb_neq; exact Hk).
  split.
  - intros ord k l A. destruct (key_dec k k0) as [->|Hk].
    + destruct (Hsame ord l A) as (ms & p & rest & -> & M). destruct M as [m rest' Hc Hmc Hk Hab Hb -> F|m i Hc R F].
      * exists (map msg_of (proj k0 a) ++ m :: map msg_of (proj k0 b) ++ rest'). split.
        { exists (map msg_of (proj k0 (a ++ c :: b))), None, rest'. split; [|split; [exact F|]].
          - cbn [rep]. symmetry. apply wholes. rewrite proj_app, forallb_app. apply wholes_are in Hab. rewrite forallb_app, andb_true_iff in Hab. destruct Hab as [Ha Hb'].
            rewrite Ha. unfold proj. cbn [filter]. rewrite Hc0. cbn [forallb]. rewrite Hc. exact Hb'.
          - rewrite proj_app, map_app. unfold proj at 4. cbn [filter]. rewrite Hc0. cbn [map]. rewrite Hmc. rewrite <- app_assoc. reflexivity. }
        apply unwholes in Hab. subst ms. rewrite map_app. split.
        { rewrite <- !app_assoc. apply Permutation_app_head. symmetry. apply (Permutation_middle (map msg_of (proj k0 b)) rest' m). }
        intros Ho. rewrite (Hb Ho). cbn [map app]. rewrite app_nil_r. reflexivity.
      * exists (ms ++ rest). split; [|split; [apply Permutation_refl|reflexivity]]. exists ms, (Some (m, i)), rest. split; [|split; [exact F|reflexivity]].
        rewrite proj_app. unfold proj at 2. cbn [filter]. rewrite Hc0. exact R.
    + exists l. split; [|split; [apply Permutation_refl|reflexivity]]. destruct A as (ms & p & rest & R & F & ->). exists ms, p, rest.
      destruct (receive_other _ _ _ _ _ k E) as [_ H2]; [unfold k0 in Hk; congruence|]. rewrite H2. rewrite filter_hd, (Hother k Hk) in F. auto.
  - intros Hcomp ord k l A. destruct (key_dec k k0) as [->|Hk].
    + destruct (Hsame ord l A) as (ms & p & rest & -> & M). destruct M as [m rest' Hc Hmc Hk Hab Hb -> F|m i Hc R F]; [|congruence].
      exists (ms ++ rest'). rewrite of_key_one, m_is_msg, Hc0. split.
      { exists ms, None, rest'. split; [|split; [exact F|reflexivity]]. cbn [rep]. rewrite proj_app. exact Hab. }
      rewrite Hmc. split; [cbn [app]; symmetry; apply Permutation_middle|]. intros _. apply sub_drop.
    + exists l. split; [|split; [|intros _; apply sub_refl]].
      * destruct A as (ms & p & rest & R & F & ->). exists ms, p, rest. destruct (receive_other _ _ _ _ _ k E) as [H1 _]; [unfold k0 in Hk; congruence|].
        rewrite H1. rewrite filter_hd, (Hother k Hk) in F. auto.
      * rewrite of_key_one, m_is_msg. unfold c_is. rewrite Hck. rewrite (proj2 (key_eqb_neq k k0) Hk). apply Permutation_refl.
Qed.

Lemma take_first_spec {A} (p : A -> bool) l x l' : take_first p l = Some (x, l') ->
  exists a b, l = a ++ x :: b /\ l' = a ++ b /\ p x = true /\ forall y, In y a -> p y = false.
Proof.
  revert x l'. induction l as [|y l IH]; intros x l'; cbn [take_first]; [discriminate|]. destruct (p y) eqn:E.
  - intros [= <- <-]. exists [], l. repeat split; auto. intros ? [].
  - destruct (take_first p l) as [[z r]|]; [|discriminate]. intros [= <- <-]. destruct (IH _ _ eq_refl) as (a & b & -> & -> & Hp & Ha).
    exists (y :: a), b. repeat split; auto. intros w [<-|Hw]; auto.
Qed.
Lemma take_first_none {A} (p : A -> bool) l : take_first p l = None <-> forall x, In x l -> p x = false.
Proof.
  induction l as [|y l IH]; cbn [take_first]; [split; [intros _ ? []|reflexivity]|]. destruct (p y) eqn:E.
  - split; [discriminate|]. intros H. rewrite (H y (or_introl eq_refl)) in E. discriminate.
  - destruct (take_first p l) as [[z r]|].
    + split; [discriminate|]. intros H. exfalso. assert (Some (z, r) = None) by (apply IH; intros; apply H; right; assumption). discriminate.
    + split; [|reflexivity]. intros _ x [<-|Hx]; [exact E|]. apply IH; auto.
Qed.

Lemma two_places {A} (x y : A) a b a' b' : a ++ x :: b = a' ++ y :: b' -> x <> y ->
  (exists z, a' = a ++ x :: z /\ b = z ++ y :: b') \/ (exists z, a = a' ++ y :: z /\ b' = z ++ x :: b).
Proof.
  revert a'. induction a as [|u a IH]; intros [|v a'] H Hn; cbn in H.
  - injection H as -> _. congruence.
  - injection H as -> ->. left. exists a'. auto.
  - injection H as -> <-. right. exists a. auto.
  - injection H as -> H. destruct (IH _ H Hn) as [(z & -> & ->)|(z & -> & ->)]; [left|right]; exists z; auto.
Qed.

(* a complete message taken out of the cache *)
Lemma take_one max p cache c cache' ord k W l : take_first p cache = Some (c, cache') -> is_complete c = true -> acct ord max k cache W l ->
  exists l', acct ord max k cache' W l' /\ Permutation l (of_key k [msg_of c] ++ l') /\
    (ord = true -> sub l' l) /\
    (ord = true -> (forall x, c_key x = c_key c -> is_complete x = true -> p x = true) -> l = of_key k [msg_of c] ++ l').
Proof.
  intros T Hc (ms & q & rest & R & F & ->). destruct (take_first_spec _ _ _ _ T) as (a & b & -> & -> & Hp & Ha). rewrite of_key_one, m_is_msg.
  rewrite proj_app in R. unfold proj at 2 in R. cbn [filter] in R. fold (proj k b) in R.
  destruct (c_is k c) eqn:Ek.
  2:{ exists (ms ++ rest). split; [exists ms, q, rest; rewrite proj_app; auto|]. split; [apply Permutation_refl|]. split; [intros _; apply sub_refl|reflexivity]. }
  assert (Hnone : (forall x, c_key x = c_key c -> is_complete x = true -> p x = true) -> forall x, In x (proj k a) -> is_complete x = false).
  { intros H x Hx. destruct (is_complete x) eqn:E; [|reflexivity]. unfold c_is in Ek. apply key_eqb_eq in Ek. rewrite <- (Ha x), H; auto.
    - apply proj_in in Hx. congruence.
    - unfold proj in Hx. apply filter_In in Hx. tauto. }
  assert (Hnil : forall z, forallb is_complete z = true -> (forall x, In x z -> is_complete x = false) -> z = []).
  { intros [|x z] H1 H2; [reflexivity|]. cbn in H1. rewrite (H2 x (or_introl eq_refl)) in H1. discriminate. }
  destruct q as [[m i]|].
  - destruct R as (a0 & c0 & b0 & E & E2 & P & Hi & Ho). pose proof (wholes_are _ _ E2) as Hw. rewrite forallb_app, andb_true_iff in Hw. destruct Hw as [Hwa Hwb].
    destruct (is_complete c0) eqn:Ec0.
    { exfalso. pose proof (partial_incomplete max m i c0) as X. rewrite Ec0 in X. enough (true = false) by discriminate. apply X; [|exact P|lia|lia].
      destruct max; [|lia]. exfalso. pose proof (pa_off _ _ _ _ P) as O. pose proof (pa_len _ _ _ _ P) as L. unfold is_complete in Ec0. apply Nat.eqb_eq in Ec0.
      rewrite Nat.mul_0_r in O. assert (length (m_payload m) = 0) by lia. destruct (m_payload m) as [|x0 pl] eqn:Epl; [|discriminate].
      unfold datagrams in Hi. rewrite Epl in Hi. cbn in Hi. lia. }
    apply unwholes in E2. subst ms. destruct (two_places c0 c a0 b0 (proj k a) (proj k b)) as [(z & Ea & Eb)|(z & Ea & Eb)].
    + symmetry. exact E.
    + intros ->. congruence.
    + (* taken from behind the incomplete one *)
      exists (map msg_of (a0 ++ z ++ proj k b) ++ rest). rewrite Eb in *.
      rewrite forallb_app, andb_true_iff in Hwb. cbn [forallb] in Hwb. destruct Hwb as [Hwz Hwb]. apply andb_true_iff in Hwb. destruct Hwb as [_ Hwb].
      assert (Ho' : ord <> true) by (intros H; specialize (Ho H); destruct z; discriminate).
      split.
      { exists (map msg_of (a0 ++ z ++ proj k b)), (Some (m, i)), rest. split; [|auto]. exists a0, c0, (z ++ proj k b). split; [rewrite proj_app, Ea, <- app_assoc; reflexivity|].
        split; [symmetry; apply wholes; rewrite !forallb_app, Hwa, Hwz, Hwb; reflexivity|]. split; [exact P|]. split; [exact Hi|congruence]. }
      split.
      { rewrite !map_app. cbn [map]. rewrite <- !app_assoc. cbn [app]. rewrite (app_assoc (map msg_of a0)), (app_assoc (map msg_of a0) (map msg_of z)).
        symmetry. apply Permutation_middle. }
      split; intros; congruence.
    + exists (map msg_of (proj k a ++ z ++ b0) ++ rest). rewrite Ea in *.
      rewrite forallb_app, andb_true_iff in Hwa. cbn [forallb] in Hwa. destruct Hwa as [Hwa Hwz]. apply andb_true_iff in Hwz. destruct Hwz as [_ Hwz].
      split.
      { exists (map msg_of (proj k a ++ z ++ b0)), (Some (m, i)), rest. split; [|auto]. exists (proj k a ++ z), c0, b0. split; [rewrite proj_app, Eb, app_assoc; reflexivity|].
        split; [rewrite <- app_assoc; symmetry; apply wholes; rewrite !forallb_app, Hwa, Hwz, Hwb; reflexivity|]. split; [exact P|]. split; [exact Hi|exact Ho]. }
      rewrite !map_app. cbn [map]. rewrite <- !app_assoc. cbn [app]. split; [symmetry; apply Permutation_middle|]. split; [intros _; apply sub_drop|].
      intros Hord H. rewrite (Hnil (proj k a) Hwa (Hnone H)). reflexivity.
  - cbn [rep] in R. pose proof (wholes_are _ _ R) as Hw. rewrite forallb_app, andb_true_iff in Hw. cbn [forallb] in Hw. destruct Hw as [Hwa Hwb].
    apply andb_true_iff in Hwb. destruct Hwb as [_ Hwb]. apply unwholes in R. subst ms. exists (map msg_of (proj k a ++ proj k b) ++ rest). split.
    { exists (map msg_of (proj k a ++ proj k b)), None, rest. split; [|auto]. cbn [rep]. rewrite proj_app. symmetry. apply wholes. rewrite forallb_app, Hwa, Hwb. reflexivity. }
    rewrite !map_app. cbn [map]. rewrite <- !app_assoc. cbn [app]. split; [symmetry; apply Permutation_middle|]. split; [intros _; apply sub_drop|].
    intros Hord H. rewrite (Hnil (proj k a) Hwa (Hnone H)). reflexivity.
Qed.
