(* The operations in small steps; where delivered bytes come from; discard; order of different keys. *)
From Coq Require Import ZArith List Bool Arith Lia Permutation.
From Verif Require Import IpcModel IpcSpec IpcChunk IpcProj IpcAcct IpcTop.
Import ListNotations.

(* one small step, with the datagrams that arrived, the messages pushed and what is reported *)
Inductive micro (cl : bool) : list transport -> list msg -> list report -> inbound -> inbound -> Prop :=
| mi_arrive t s : micro cl [t] [] [] s (mk_in (i_cache s) (i_disc s) (i_wire s ++ [t]))
| mi_keep t w a c b s : i_wire s = t :: w -> receive t (i_cache s) = Some (a, c, b) -> drop c (i_disc s) = false ->
    micro cl [] [] [] s (mk_in (a ++ c :: b) (i_disc s) w)
| mi_drop t w a c b s : i_wire s = t :: w -> receive t (i_cache s) = Some (a, c, b) -> drop c (i_disc s) = true ->
    micro cl [] [] [Dropped (msg_of c)] s (mk_in (a ++ b) (erase1 (c_corr c) (i_disc s)) w)
| mi_reject t w s : i_wire s = t :: w -> receive t (i_cache s) = None -> micro cl [] [] [Raised] s (mk_in (i_cache s) (i_disc s) w)
| mi_take p c l s x : take_first p (i_cache s) = Some (c, l) -> is_complete c = true -> x = Got (msg_of c) \/ x = Dropped (msg_of c) ->
    micro cl [] [] [x] s (mk_in l (i_disc s) (i_wire s))
| mi_nothing s : micro cl [] [] [Nothing] s s
| mi_mark d s : micro cl [] [] [] s (mk_in (i_cache s) (i_disc s ++ [d]) (i_wire s))
| mi_push m s : micro cl [] [m] [] s (mk_in (i_cache s ++ [whole m]) (i_disc s) (i_wire s))
| mi_skip m s : micro cl [] [m] [] s s
| mi_clear s : cl = true -> micro cl [] [] (map (fun c => Dropped (msg_of c)) (filter is_complete (i_cache s))) s (mk_in [] (i_disc s) (i_wire s)).

Inductive star (cl : bool) : list transport -> list msg -> list report -> inbound -> inbound -> Prop :=
| sr_nil s : star cl [] [] [] s s
| sr_step A1 P1 r1 A2 P2 r2 s s1 s2 : micro cl A1 P1 r1 s s1 -> star cl A2 P2 r2 s1 s2 -> star cl (A1 ++ A2) (P1 ++ P2) (r1 ++ r2) s s2.

Lemma star_one cl A P r s s1 : micro cl A P r s s1 -> star cl A P r s s1.
Proof. intros H. rewrite <- (app_nil_r A), <- (app_nil_r P), <- (app_nil_r r). econstructor; [exact H|constructor]. Qed.
Lemma star_app cl A1 P1 r1 A2 P2 r2 s s1 s2 : star cl A1 P1 r1 s s1 -> star cl A2 P2 r2 s1 s2 -> star cl (A1 ++ A2) (P1 ++ P2) (r1 ++ r2) s s2.
Proof. induction 1 as [s|A1 P1 r1 A1' P1' r1' s s1 s1' M S IH]; intros H; [exact H|]. rewrite <- !app_assoc. econstructor; eauto. Qed.
Lemma star_drops cl A P r s s1 : star cl A P r s s1 -> star cl A P (drops r) s s1.
Proof.
  induction 1 as [s|A1 P1 r1 A2 P2 r2 s s1 s2 M S IH]; [constructor|]. unfold drops. rewrite flat_map_app. fold (drops r1) (drops r2).
  inversion M; subst; try (econstructor; [exact M|exact IH]).
  - match goal with H : _ \/ _ |- _ => destruct H as [-> | ->] end; (econstructor; [|exact IH]); cbn; eapply mi_take; eauto.
  - cbn. exact IH.
  - assert (drops (map (fun c => Dropped (msg_of c)) (filter is_complete (i_cache s))) = map (fun c => Dropped (msg_of c)) (filter is_complete (i_cache s))) as ->.
    { clear. induction (filter is_complete (i_cache s)) as [|x l IHl]; [reflexivity|]. unfold drops in *. cbn. rewrite IHl. reflexivity. }
    econstructor; [exact M|exact IH].
Qed.

Lemma find_star cl p : (forall x, p x = true -> is_complete x = true) -> forall wire cache disc, let q := find p wire cache disc in star cl [] [] (snd q) (mk_in cache disc wire) (fst q).
Proof.
  intros Hp. induction wire as [|t wire IH]; intros cache disc; cbn [find].
  - destruct (take_first p cache) as [[c l]|] eqn:T; apply star_one.
    + apply (mi_take cl p c l (mk_in cache disc [])); auto. destruct (take_first_spec _ _ _ _ T) as (? & ? & _ & _ & H & _). auto.
    + apply mi_nothing.
  - destruct (take_first p cache) as [[c l]|] eqn:T.
    + apply star_one. apply (mi_take cl p c l (mk_in cache disc (t :: wire))); auto. destruct (take_first_spec _ _ _ _ T) as (? & ? & _ & _ & H & _). auto.
    + destruct (receive t cache) as [[[a c] b]|] eqn:E.
      * destruct (drop c disc) eqn:D.
        { specialize (IH (a ++ b) (erase1 (c_corr c) disc)). cbn zeta in IH. destruct (find p wire (a ++ b) (erase1 (c_corr c) disc)) as [s r]. cbn [fst snd] in *.
          apply (sr_step cl [] [] [Dropped (msg_of c)] [] [] r _ _ _ (mi_drop cl t wire a c b (mk_in cache disc (t :: wire)) eq_refl E D) IH). }
        { specialize (IH (a ++ c :: b) disc). cbn zeta in IH.
          apply (sr_step cl [] [] [] [] [] _ _ _ _ (mi_keep cl t wire a c b (mk_in cache disc (t :: wire)) eq_refl E D) IH). }
      * apply star_one. apply (mi_reject cl t wire (mk_in cache disc (t :: wire))); auto.
Qed.
Lemma select_star cl s i : star cl [] [] (snd (select s i)) i (fst (select s i)).
Proof. unfold select. destruct i as [cache disc wire]. apply find_star. intros x H. apply andb_true_iff in H. tauto. Qed.
Lemma flush_star cl n i : star cl [] [] (snd (flush n i)) i (fst (flush n i)).
Proof.
  revert i. induction n as [|n IH]; intros i; cbn [flush]; [constructor|]. pose proof (select_star cl (Of_type flush_ipc) i) as S. destruct (select (Of_type flush_ipc) i) as [i1 r1].
  cbn [fst snd] in S. apply star_drops in S. destruct (got r1); [|exact S]. specialize (IH i1). destruct (flush n i1) as [i2 r2]. cbn [fst snd] in *. apply (star_app cl [] [] _ [] [] _ _ _ _ S IH).
Qed.
Lemma mark_star cl c i1 : star cl [] [] [] i1 (mk_in (i_cache i1) (if mem c (i_disc i1) then i_disc i1 else i_disc i1 ++ [c]) (i_wire i1)).
Proof. destruct (mem c (i_disc i1)); [destruct i1; constructor|apply star_one, mi_mark]. Qed.
Lemma discard_star cl c i : star cl [] [] (snd (discard c i)) i (fst (discard c i)).
Proof.
  unfold discard. pose proof (flush_star cl batch_flush i) as S. destruct (flush batch_flush i) as [i1 r1]. cbn [fst snd] in S.
  destruct (raised r1); [exact S|]. assert (S' := star_app cl [] [] _ [] [] _ _ _ _ S (mark_star cl c i1)). cbn [app] in S'. rewrite (app_nil_r r1) in S'.
  destruct (List.find _ (i_cache i1)) as [x|] eqn:E; [|exact S']. destruct (is_complete x) eqn:Ex; [|exact S'].
  destruct (find_take _ _ _ E) as (l' & T). rewrite T. apply (star_app cl [] [] _ [] [] _ _ _ _ S). apply star_one. eapply mi_take; eauto.
Qed.
Lemma step_star cl o i : (o = Clear -> cl = true) -> star cl (arrivals [o]) (pushed [o]) (snd (step o i)) i (fst (step o i)).
Proof.
  intros Hcl. destruct o as [t|s|s|c|m|n|]; cbn [arrivals pushed flat_map app step].
  - apply star_one, mi_arrive.
  - apply select_star.
  - apply star_one. unfold cached. destruct (take_first _ _) as [[c l]|] eqn:T; [|apply mi_nothing]. eapply mi_take; eauto.
    destruct (take_first_spec _ _ _ _ T) as (? & ? & _ & _ & H & _). apply andb_true_iff in H. tauto.
  - apply discard_star.
  - unfold push. pose proof (flush_star cl 1 i) as S. destruct (flush 1 i) as [i1 r1]. cbn [fst snd] in S. destruct (raised r1).
    + cbn [fst snd]. rewrite <- (app_nil_r r1). apply (star_app cl [] [] _ [] [m] _ _ _ _ S (star_one cl _ _ _ _ _ (mi_skip cl m i1))).
    + cbn [fst snd]. rewrite <- (app_nil_r r1). apply (star_app cl [] [] _ [] [m] _ _ _ _ S (star_one cl _ _ _ _ _ (mi_push cl m i1))).
  - apply flush_star.
  - unfold clear. pose proof (flush_star cl batch_flush i) as S. destruct (flush batch_flush i) as [i1 r1]. cbn [fst snd] in S. destruct (raised r1); [exact S|].
    apply (star_app cl [] [] _ [] [] _ _ _ _ S (star_one cl _ _ _ _ _ (mi_clear cl i1 (Hcl eq_refl)))).
Qed.
Lemma run_star cl l i : (In Clear l -> cl = true) -> star cl (arrivals l) (pushed l) (snd (run l i)) i (fst (run l i)).
Proof.
  revert i. induction l as [|o l IH]; intros i Hcl; [constructor|]. cbn [run]. pose proof (step_star cl o i (fun E => Hcl (or_introl E))) as S. destruct (step o i) as [i1 r1]. cbn [fst snd] in S.
  specialize (IH i1 (fun H => Hcl (or_intror H))). destruct (run l i1) as [i2 r2]. cbn [fst snd] in *.
  replace (arrivals (o :: l)) with (arrivals [o] ++ arrivals l) by (symmetry; apply (flat_map_app _ [o] l)).
  replace (pushed (o :: l)) with (pushed [o] ++ pushed l) by (symmetry; apply (flat_map_app _ [o] l)). apply (star_app cl _ _ _ _ _ _ _ _ _ S IH).
Qed.

(* ---------------------------------------------------------------- where the bytes come from *)
Definition built (A : list transport) (c : complete) : Prop :=
  exists d ds, sub (d :: ds) A /\ back_to_back (c_key c) 0 (d :: ds) /\ flat_map t_data (d :: ds) = firstn (c_offset c) (c_payload c) /\
    t_size d = length (c_payload c) /\ c_offset c <= length (c_payload c).
Definition origin (A : list transport) (P : list msg) (c : complete) : Prop := (is_complete c = true /\ In (msg_of c) P) \/ built A c.
Definition origin_m (A : list transport) (P : list msg) (m : msg) : Prop := In m P \/ made_of A m.

Lemma sub_right {A} (l A1 A2 : list A) : sub l A1 -> sub l (A1 ++ A2).
Proof. intros H. rewrite <- (app_nil_r l). apply sub_app; [exact H|apply sub_nil_l]. Qed.
Lemma b2b_app k a b : forall o, back_to_back k o (a ++ b) <-> back_to_back k o a /\ back_to_back k (o + length (flat_map t_data a)) b.
Proof.
  induction a as [|d a IH]; intros o; cbn [app back_to_back flat_map length].
  - rewrite Nat.add_0_r. tauto.
  - rewrite IH, app_length, Nat.add_assoc. tauto.
Qed.
Lemma origin_mono A P A' P' c : origin A P c -> origin (A ++ A') (P ++ P') c.
Proof.
  intros [[H1 H2]|(d & ds & H1 & H2)]; [left; split; [exact H1|apply in_app_iff; auto]|right]. exists d, ds. split; [apply sub_right, H1|exact H2].
Qed.
Lemma origin_m_mono A P A' P' c : origin_m A P c -> origin_m (A ++ A') (P ++ P') c.
Proof.
  intros [H2|(d & ds & H1 & H2)]; [left; apply in_app_iff; auto|right]. exists d, ds. split; [apply sub_right, H1|exact H2].
Qed.
Lemma origin_msg A P c : is_complete c = true -> origin A P c -> origin_m A P (msg_of c).
Proof.
  intros Hc [[_ H]|(d & ds & H1 & H2 & H3 & H4 & H5)]; [left; exact H|right]. exists d, ds. split; [exact H1|]. split; [exact H2|]. split; [|exact H4].
  unfold is_complete in Hc. apply Nat.eqb_eq in Hc. rewrite H3, <- Hc, firstn_all. reflexivity.
Qed.

Lemma add_built A t c c' : built A c -> is_complete c = false -> c_key c = t_key t -> add t c = Some c' -> built (A ++ [t]) c'.
Proof.
  intros (d & ds & H1 & H2 & H3 & H4 & H5) Hc Hk. unfold add. destruct (Nat.ltb_spec (t_offset t) (c_offset c)); [intros [= <-]; exists d, ds; split; [apply sub_right, H1|auto]|].
  destruct (Nat.ltb_spec (c_offset c) (t_offset t)); [discriminate|]. destruct (Nat.ltb_spec (length (c_payload c)) (t_offset t + length (t_data t))); [discriminate|].
  intros [= <-]. assert (Ho : t_offset t = c_offset c) by lia.
  assert (HL : length (flat_map t_data (d :: ds)) = c_offset c) by (rewrite H3, firstn_length; lia).
  exists d, (ds ++ [t]). change (d :: ds ++ [t]) with ((d :: ds) ++ [t]). split; [apply sub_app; [exact H1|apply sub_refl]|]. unfold c_key in *. cbn [c_type c_corr c_payload c_offset].
  split; [|split; [|split]].
  - apply b2b_app. split; [exact H2|]. rewrite HL. cbn [back_to_back]. split; [auto|]. split; [cbn; lia|exact I].
  - rewrite flat_map_app, H3. cbn [flat_map]. rewrite app_nil_r. unfold copy_at. rewrite app_assoc. symmetry. apply firstn_app_exact. rewrite app_length, firstn_length. lia.
  - rewrite H4. unfold copy_at. rewrite !app_length, firstn_length, skipn_length. lia.
  - unfold copy_at. rewrite !app_length, firstn_length, skipn_length. lia.
Qed.
Lemma fresh_built A t c' : fresh t = Some c' -> built (A ++ [t]) c'.
Proof.
  unfold fresh, add. cbn [c_offset c_payload c_type c_corr]. destruct (Nat.ltb_spec (t_offset t) 0); [lia|]. destruct (Nat.ltb_spec 0 (t_offset t)); [discriminate|].
  rewrite repeat_length. destruct (Nat.ltb_spec (t_size t) (t_offset t + length (t_data t))); [discriminate|]. intros [= <-].
  assert (Ho : t_offset t = 0) by lia. exists t, []. split; [change [t] with ([] ++ [t]) at 1; apply sub_app; [apply sub_nil_l|apply sub_refl]|].
  cbn [c_type c_corr c_payload c_offset back_to_back flat_map]. split; [auto|]. rewrite app_nil_r. unfold copy_at. cbn [firstn app Nat.add].
  split; [symmetry; apply firstn_app_exact; reflexivity|]. rewrite app_length, skipn_length, repeat_length. lia.
Qed.

Lemma receive_origin A P t l a c b : Forall (origin A P) l -> receive t l = Some (a, c, b) -> Forall (origin (A ++ [t]) P) (a ++ c :: b).
Proof.
  revert a c b. induction l as [|x l IH]; intros a c b H; cbn [receive].
  - destruct (fresh t) eqn:E; [|discriminate]. intros [= <- <- <-]. constructor; [right; apply fresh_built; exact E|constructor].
  - inversion H as [|? ? Hx Hl]; subst. assert (Hmono : forall y, origin A P y -> origin (A ++ [t]) P y) by (intros y Hy; rewrite <- (app_nil_r P); apply origin_mono, Hy).
    destruct (takes t x) eqn:T.
    + destruct (add t x) eqn:E; [|discriminate]. intros [= <- <- <-]. apply takes_key in T. destruct T as [Tk Tc]. cbn [app]. constructor.
      * destruct Hx as [[Hc _]|Hx]; [congruence|]. right. eapply add_built; eauto.
      * eapply Forall_impl; [exact Hmono|exact Hl].
    + destruct (receive t l) as [[[a' c'] b']|] eqn:E; [|discriminate]. intros [= <- <- <-]. cbn [app]. constructor; [apply Hmono, Hx|]. apply (IH _ _ _ Hl eq_refl).
Qed.

Lemma forall_take {A} (Q : A -> Prop) p l x l' : Forall Q l -> take_first p l = Some (x, l') -> Q x /\ Forall Q l'.
Proof.
  intros H T. destruct (take_first_spec _ _ _ _ T) as (a & b & -> & -> & _). rewrite Forall_app in *. destruct H as [Ha Hb]. inversion Hb; subst. rewrite ?Forall_app. auto.
Qed.

(* D: the datagrams taken from the socket so far *)
Lemma star_origin cl A P r s s' : star cl A P r s s' -> forall D Q, Forall (origin D Q) (i_cache s) ->
  exists D', D' ++ i_wire s' = D ++ i_wire s ++ A /\ Forall (origin D' (Q ++ P)) (i_cache s') /\
    forall m, In m (consumed r) -> origin_m (D ++ i_wire s ++ A) (Q ++ P) m.
Proof.
  induction 1 as [s|A1 P1 r1 A2 P2 r2 s s1 s2 M S IH]; intros D Q H.
  - exists D. rewrite !app_nil_r. split; [reflexivity|]. split; [exact H|]. intros m [].
  - assert (X : exists D1, D1 ++ i_wire s1 = D ++ i_wire s ++ A1 /\ Forall (origin D1 (Q ++ P1)) (i_cache s1) /\
        forall m, In m (consumed r1) -> origin_m (D ++ i_wire s ++ A1) (Q ++ P1) m).
    { inversion M; subst; cbn [i_wire i_cache]; rewrite ?app_nil_r; try match goal with W : i_wire s = ?t :: ?w |- _ => rewrite W end.
      - exists D. split; [reflexivity|]. split; [exact H|]. intros m [].
      - exists (D ++ [t]). rewrite <- app_assoc. split; [reflexivity|]. split; [eapply receive_origin; eauto|]. intros m [].
      - pose proof (receive_origin _ _ _ _ _ _ _ H H1) as Z. rewrite Forall_app in Z. destruct Z as [Za Zb]. inversion Zb; subst.
        exists (D ++ [t]). rewrite <- app_assoc. split; [reflexivity|]. split; [rewrite Forall_app; auto|]. intros m [<-|[]].
        unfold drop in H2. apply andb_true_iff in H2. rewrite <- (app_nil_r Q). change (D ++ t :: w) with (D ++ [t] ++ w). rewrite app_assoc. apply origin_m_mono, origin_msg; tauto.
      - exists (D ++ [t]). rewrite <- app_assoc. split; [reflexivity|]. split; [|intros m []]. eapply Forall_impl; [|exact H]. intros y Hy. rewrite <- (app_nil_r Q). apply origin_mono, Hy.
      - destruct (forall_take _ _ _ _ _ H H0) as [Hc Hl]. exists D. split; [reflexivity|]. split; [exact Hl|]. intros m Hm. assert (m = msg_of c) as ->.
        { destruct H2 as [-> | ->]; cbn in Hm; destruct Hm as [<-|[]]; reflexivity. }
        rewrite <- (app_nil_r Q). apply origin_m_mono, origin_msg; auto.
      - exists D. split; [reflexivity|]. split; [exact H|]. intros m [].
      - exists D. split; [reflexivity|]. split; [exact H|]. intros m [].
      - exists D. split; [reflexivity|]. split; [|intros ? []]. rewrite Forall_app. split.
        + eapply Forall_impl; [|exact H]. intros y Hy. rewrite <- (app_nil_r D). apply origin_mono, Hy.
        + constructor; [|constructor]. left. split; [apply whole_complete|]. rewrite whole_msg. apply in_app_iff. right. left. reflexivity.
      - exists D. split; [reflexivity|]. split; [|intros ? []]. eapply Forall_impl; [|exact H]. intros y Hy. rewrite <- (app_nil_r D). apply origin_mono, Hy.
      - exists D. split; [reflexivity|]. split; [constructor|]. intros m Hm. unfold consumed in Hm. rewrite flat_map_concat_map, map_map in Hm.
        assert (Hx : exists c, In c (filter is_complete (i_cache s)) /\ m = msg_of c).
        { clear -Hm. induction (filter is_complete (i_cache s)) as [|y l IHl]; [destruct Hm|]. cbn in Hm. destruct Hm as [<-|Hm]; [exists y; split; [left; reflexivity|reflexivity]|].
          destruct (IHl Hm) as (c & Hc & E). exists c. split; [right; exact Hc|exact E]. }
        destruct Hx as (c & Hc & ->). apply filter_In in Hc. destruct Hc as [Hin Hc]. rewrite Forall_forall in H. rewrite <- (app_nil_r Q). apply origin_m_mono, origin_msg; auto. }
    destruct X as (D1 & E1 & F1 & G1). destruct (IH D1 (Q ++ P1) F1) as (D2 & E2 & F2 & G2). rewrite <- !app_assoc in *. exists D2.
    assert (EE : D1 ++ i_wire s1 ++ A2 = D ++ i_wire s ++ A1 ++ A2) by (rewrite (app_assoc D1), E1, <- !app_assoc; reflexivity).
    split; [rewrite E2; exact EE|]. split; [exact F2|]. intros m Hm. rewrite consumed_app in Hm. apply in_app_iff in Hm. destruct Hm as [Hm|Hm].
    + rewrite !app_assoc. apply origin_m_mono. rewrite <- app_assoc. apply G1, Hm.
    + rewrite <- EE. apply G2, Hm.
Qed.

Theorem authentic l s r m : run l empty = (s, r) -> In (Got m) r -> In m (pushed l) \/ made_of (arrivals l) m.
Proof.
  intros E H. pose proof (run_star true l empty (fun _ => eq_refl)) as S. rewrite E in S. destruct (star_origin _ _ _ _ _ _ S [] [] (Forall_nil _)) as (D & _ & _ & G).
  apply (G m). unfold consumed. apply in_flat_map. exists (Got m). split; [exact H|left; reflexivity].
Qed.

(* ---------------------------------------------------------------- nothing means nothing *)
Lemma find_nothing p wire cache disc s r : find p wire cache disc = (s, r ++ [Nothing]) -> i_wire s = [] /\ forall c, In c (i_cache s) -> p c = false.
Proof.
  revert cache disc s r. induction wire as [|t wire IH]; intros cache disc s r; cbn [find].
  - destruct (take_first p cache) as [[c l]|] eqn:T; intros E; injection E as <- Er.
    + exfalso. destruct r as [|x r]; [discriminate|]. cbn in Er. injection Er as _ Er. destruct r; discriminate.
    + split; [reflexivity|]. apply take_first_none. exact T.
  - destruct (take_first p cache) as [[c l]|] eqn:T.
    + intros E. injection E as <- Er. exfalso. destruct r as [|x r]; [discriminate|]. cbn in Er. injection Er as _ Er. destruct r; discriminate.
    + destruct (receive t cache) as [[[a c] b]|].
      * destruct (drop c disc); [|apply IH]. destruct (find p wire (a ++ b) (erase1 (c_corr c) disc)) as [s' r'] eqn:F. intros E. injection E as <- Er.
        destruct r as [|x r]; cbn in Er; [discriminate|]. injection Er as _ Er. subst r'. apply (IH _ _ _ _ F).
      * intros E. injection E as <- Er. exfalso. destruct r as [|x r]; [discriminate|]. cbn in Er. injection Er as _ Er. destruct r; discriminate.
Qed.

Lemma run_app l1 l2 i : run (l1 ++ l2) i = let (i1, r1) := run l1 i in let (i2, r2) := run l2 i1 in (i2, r1 ++ r2).
Proof.
  revert i. induction l1 as [|o l1 IH]; intros i; cbn [app run].
  - destruct (run l2 i); reflexivity.
  - destruct (step o i) as [i1 r1]. rewrite IH. destruct (run l1 i1) as [i2 r2]. destruct (run l2 i2) as [i3 r3]. rewrite app_assoc. reflexivity.
Qed.

Lemma perm_filter {A} (p : A -> bool) a b : Permutation a b -> Permutation (filter p a) (filter p b).
Proof.
  induction 1 as [|x a b H IH|x y a|a b c H1 IH1 H2 IH2]; cbn [filter]; [constructor| |..].
  - destruct (p x); [constructor|]; exact IH.
  - destruct (p x), (p y); try reflexivity. apply perm_swap.
  - etransitivity; eauto.
Qed.

Theorem nothing_left max sent l sl s r1 r2 s1 k : proper max sent (l ++ [Next sl]) -> run l empty = (s1, r1) -> step (Next sl) s1 = (s, r2 ++ [Nothing]) ->
  Permutation (filter (selects sl) (sent k ++ of_key k (pushed l))) (filter (selects sl) (of_key k (consumed (r1 ++ r2)))).
Proof.
  intros P E1 E2. assert (E : run (l ++ [Next sl]) empty = (s, r1 ++ r2 ++ [Nothing])).
  { rewrite run_app, E1. cbn [run]. rewrite E2. rewrite app_nil_r. reflexivity. }
  destruct (exactly_once max sent _ _ _ k P E) as (rest & Q & Hr). cbn [step] in E2. unfold select in E2. destruct (find_nothing _ _ _ _ _ _ E2) as [Hw Hn].
  rewrite (Hr Hw), app_nil_r in Q. apply (perm_filter (selects sl)) in Q.
  replace (pushed (l ++ [Next sl])) with (pushed l) in Q by (unfold pushed; rewrite flat_map_app; cbn; rewrite app_nil_r; reflexivity).
  rewrite Q. rewrite filter_app.
  replace (filter (selects sl) (of_key k (ready s))) with (@nil msg).
  - rewrite app_nil_r. rewrite !consumed_app. cbn [consumed flat_map]. rewrite app_nil_r. reflexivity.
  - symmetry. unfold ready, of_key. rewrite filter_comm. replace (filter (selects sl) (map msg_of (filter is_complete (i_cache s)))) with (@nil msg); [reflexivity|].
    clear - Hn. induction (i_cache s) as [|c l IH]; [reflexivity|]. cbn [filter]. destruct (is_complete c) eqn:Ec.
    + cbn [map filter]. pose proof (Hn c (or_introl eq_refl)) as H. cbn beta in H. rewrite Ec in H. cbn in H. rewrite H. apply IH. intros; apply Hn; right; assumption.
    + apply IH. intros; apply Hn; right; assumption.
Qed.

(* ---------------------------------------------------------------- one message *)
Lemma find_shape p : forall wire cache s r, find p wire cache [] = (s, r) -> r = [Nothing] \/ r = [Raised] \/ exists m, r = [Got m].
Proof.
  induction wire as [|t wire IH]; intros cache s r; cbn [find].
  - destruct (take_first p cache) as [[c l]|]; intros [= _ <-]; eauto.
  - destruct (take_first p cache) as [[c l]|]; [intros [= _ <-]; eauto|]. destruct (receive t cache) as [[[a c] b]|]; [|intros [= _ <-]; eauto].
    unfold drop. cbn [mem existsb andb]. apply IH.
Qed.
Lemma run_arrive ts i : run (map Arrive ts) i = (mk_in (i_cache i) (i_disc i) (i_wire i ++ ts), []).
Proof.
  revert i. induction ts as [|t ts IH]; intros i; cbn [map run step].
  - rewrite app_nil_r. destruct i; reflexivity.
  - rewrite IH. cbn. rewrite <- app_assoc. reflexivity.
Qed.
Lemma arrivals_map ts : arrivals (map Arrive ts) = ts.
Proof. induction ts as [|t ts IH]; [reflexivity|]. unfold arrivals in *. cbn. rewrite IH. reflexivity. Qed.
Lemma pushed_map ts : pushed (map Arrive ts) = [].
Proof. induction ts as [|t ts IH]; [reflexivity|]. exact IH. Qed.
Lemma transmits_keys max m i ts : 0 < max -> transmits max m i ts -> Forall (fun t => t_key t = m_key m) ts.
Proof. intros Hm. induction 1; constructor; auto; eapply datagram_key; eauto. Qed.

Definition only (m : msg) (k : key) : list msg := if m_is k m then [m] else [].
Lemma proper_one max m ts sl : 0 < max -> transmits max m 0 ts -> proper max (only m) (map Arrive ts ++ [Next sl]).
Proof.
  intros Hm T. split; [exact Hm|]. split.
  { rewrite in_app_iff. intros [H|[H|[]]]; [|discriminate]. apply in_map_iff in H. destruct H as (? & ? & _). discriminate. }
  intros k. unfold arrivals. rewrite flat_map_app. fold (arrivals (map Arrive ts)). rewrite arrivals_map. cbn. rewrite app_nil_r. pose proof (transmits_keys _ _ _ _ Hm T) as Hk.
  rewrite Forall_forall in Hk. unfold only. destruct (m_is k m) eqn:E.
  - unfold m_is in E. apply key_eqb_eq in E. replace (filter (t_is k) ts) with ts.
    + rewrite <- (app_nil_r ts). apply st_more; [congruence|exact T|constructor].
    + symmetry. apply filter_all. apply forallb_forall. intros t Ht. unfold t_is. rewrite (Hk t Ht). apply key_eqb_eq. exact E.
  - replace (filter (t_is k) ts) with (@nil transport); [constructor|]. symmetry. clear T. induction ts as [|t ts IH]; [reflexivity|]. cbn [filter].
    unfold t_is at 1. rewrite (Hk t (or_introl eq_refl)). unfold m_is in E. rewrite E. apply IH. intros; apply Hk; right; assumption.
Qed.

Theorem round_trip max m ts sl : 0 < max -> transmits max m 0 ts -> selects sl m = true ->
  snd (run (map Arrive ts ++ [Next sl]) empty) = [Got m].
Proof.
  intros Hm T Hs. pose proof (proper_one max m ts sl Hm T) as P. destruct (run (map Arrive ts ++ [Next sl]) empty) as [s r] eqn:E. cbn [snd].
  pose proof (never_raised _ _ _ _ _ P E) as Hno. pose proof E as E'. rewrite run_app, run_arrive in E'. cbn [empty i_cache i_disc i_wire app run step] in E'.
  destruct (select sl (mk_in [] [] ts)) as [s2 r2] eqn:E2. injection E' as <- Er. rewrite app_nil_r in Er. subst r2.
  assert (Hp : pushed (map Arrive ts ++ [Next sl]) = []) by (unfold pushed; rewrite flat_map_app; fold (pushed (map Arrive ts)); rewrite pushed_map; reflexivity).
  pose proof E2 as E3. unfold select in E3. cbn [i_wire i_cache i_disc] in E3. destruct (find_shape _ _ _ _ _ E3) as [-> | [-> | (x & ->)]].
  - exfalso. pose proof (nothing_left max (only m) (map Arrive ts) sl s2 [] [] (mk_in [] [] ts) (m_key m) P) as N.
    rewrite run_arrive in N. specialize (N eq_refl E2). rewrite pushed_map in N. unfold only, m_is in N. rewrite key_eqb_refl in N. cbn in N. rewrite Hs in N.
    apply Permutation_length in N. discriminate.
  - exfalso. apply Hno. left. reflexivity.
  - destruct (exactly_once _ _ _ _ _ (m_key x) P E) as (rest & Q & _). rewrite Hp in Q. cbn [consumed flat_map app] in Q. rewrite of_key_one in Q.
    unfold m_is at 1 in Q. rewrite key_eqb_refl in Q. unfold only in Q. destruct (m_is (m_key x) m); [|apply Permutation_length in Q; discriminate].
    cbn in Q. pose proof (Permutation_in x (Permutation_sym Q) (or_introl eq_refl)) as [<-|[]]. reflexivity.
Qed.

(* a sender that gives up any number of times and starts over *)
Lemma transmits_from max m i : i <= length (datagrams max m) -> transmits max m i (skipn i (datagrams max m)).
Proof.
  remember (length (datagrams max m) - i) as n eqn:E. revert i E. induction n as [|n IH]; intros i E Hi.
  - assert (i = length (datagrams max m)) as -> by lia. rewrite skipn_all. constructor.
  - destruct (nth_error (datagrams max m) i) as [t|] eqn:N; [|apply nth_error_None in N; lia].
    replace (skipn i (datagrams max m)) with (t :: skipn (S i) (datagrams max m)); [apply tr_next; [exact N|apply IH; lia]|].
    clear - N. revert i N. induction (datagrams max m) as [|x l IHl]; intros [|i] N; cbn in *; try discriminate; [congruence|]. apply IHl, N.
Qed.
(* datagrams j, j+1, .. n-1 when i are there: those below i are resent *)
Lemma transmits_redo max m i ts n : i <= n -> n < length (datagrams max m) -> transmits max m n ts -> forall j, j <= i ->
  transmits max m i (firstn (n - j) (skipn j (datagrams max m)) ++ ts).
Proof.
  intros Hi Hn T j Hj. remember (n - j) as d eqn:E. revert i j E Hi Hj. induction d as [|d IH]; intros i j E Hi Hj.
  - assert (i = n) as -> by lia. exact T.
  - destruct (nth_error (datagrams max m) j) as [t|] eqn:N; [|apply nth_error_None in N; lia].
    replace (skipn j (datagrams max m)) with (t :: skipn (S j) (datagrams max m)).
    2:{ clear - N. revert j N. induction (datagrams max m) as [|x l IHl]; intros [|j] N; cbn in *; try discriminate; [congruence|]. apply IHl, N. }
    cbn [firstn app]. destruct (Nat.eq_dec j i) as [->|Hne].
    + apply tr_next; [exact N|]. apply IH; lia.
    + apply (tr_again _ _ i j); [lia|lia|exact N|]. apply IH; lia.
Qed.
Lemma transmits_again max m i n ts : n <= i -> i < length (datagrams max m) -> transmits max m i ts -> transmits max m i (firstn n (datagrams max m) ++ ts).
Proof.
  intros Hn Hi T. assert (forall d j, j + d = n -> transmits max m i (firstn d (skipn j (datagrams max m)) ++ ts)) as H; [|apply (H n 0); lia].
  induction d as [|d IH]; intros j E; [exact T|]. destruct (nth_error (datagrams max m) j) as [t|] eqn:N; [|apply nth_error_None in N; lia].
  replace (skipn j (datagrams max m)) with (t :: skipn (S j) (datagrams max m)).
  2:{ clear - N. revert j N. induction (datagrams max m) as [|x l IHl]; intros [|j] N; cbn in *; try discriminate; [congruence|]. apply IHl, N. }
  cbn [firstn app]. apply (tr_again _ _ i j); [lia|lia|exact N|]. apply IH. lia.
Qed.
Definition accepted (max : nat) (accept : list bool) (m : msg) : list transport := fst (send max accept m).
Lemma attempt_prefix a ts : exists n, fst (attempt a ts) = firstn n ts /\ (snd (attempt a ts) = true -> fst (attempt a ts) = ts) /\ (snd (attempt a ts) = false -> n < length ts).
Proof.
  revert a. induction ts as [|t ts IH]; intros a; [exists 0; destruct a; (split; [reflexivity|split; [reflexivity|discriminate]])|].
  destruct a as [|[] a]; [exists 0; cbn; split; [reflexivity|split; [discriminate|lia]]| |exists 0; cbn; split; [reflexivity|split; [discriminate|lia]]].
  cbn [attempt]. destruct (IH a) as (n & H1 & H2 & H3). destruct (attempt a ts) as [s ok]. cbn [fst snd] in *. exists (S n). cbn [firstn length]. subst s. split; [reflexivity|]. split.
  - intros Hok. rewrite (H2 Hok). reflexivity.
  - intros Hok. specialize (H3 Hok). lia.
Qed.
Theorem attempts_transmit max m (tries : list (list bool)) last : 0 < max -> (forall a, In a tries -> snd (send max a m) = false) -> snd (send max last m) = true ->
  transmits max m 0 (flat_map (fun a => accepted max a m) tries ++ accepted max last m).
Proof.
  intros Hm. set (N := length (datagrams max m)).
  assert (H : forall i, i < N -> (forall a, In a tries -> snd (send max a m) = false) -> snd (send max last m) = true ->
     transmits max m i (flat_map (fun a => accepted max a m) tries ++ accepted max last m)).
  { induction tries as [|a tries IH]; intros i Hi Hf Hl.
    - cbn. unfold accepted, send in *. destruct (attempt_prefix last (datagrams max m)) as (n & _ & H2 & _). rewrite (H2 Hl).
      rewrite <- (firstn_skipn i (datagrams max m)). apply transmits_again; [lia|exact Hi|]. apply transmits_from. unfold N in Hi. lia.
    - cbn [flat_map]. rewrite <- app_assoc. unfold accepted at 1, send. pose proof (Hf a (or_introl eq_refl)) as Ha. unfold send in Ha.
      destruct (attempt_prefix a (datagrams max m)) as (n & H1 & _ & H3). rewrite H1. specialize (H3 Ha). fold N in H3.
      destruct (le_lt_dec n i) as [Hni|Hni].
      + apply transmits_again; [exact Hni|exact Hi|]. apply IH; auto. intros; apply Hf; right; assumption.
      + replace (firstn n (datagrams max m)) with (firstn (n - 0) (skipn 0 (datagrams max m))) by (rewrite Nat.sub_0_r; reflexivity).
        apply (transmits_redo max m i _ n); [lia|exact H3| |lia]. apply IH; auto. intros; apply Hf; right; assumption. }
  intros Hf Hl. apply H; auto. unfold N. pose proof (datagrams_len max m Hm). lia.
Qed.
