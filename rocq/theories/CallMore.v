From Coq Require Import ZArith List Bool Lia Sorting.Sorted.
From Verif Require Import CodesModel CtxModel CallModel CallSpec CallProofs.
Import ListNotations.
Local Open Scope Z_scope.

(* ---------------------------------------------------------------- prefixes of histories *)
Lemma events_app a b : events (a ++ b) = events a ++ events b.
Proof. unfold events. apply flat_map_app. Qed.
Lemma outstanding_app a b : outstanding (a ++ b) = fold_left after_entry b (outstanding a).
Proof. unfold outstanding. apply fold_left_app. Qed.
Lemma outstanding_snoc h n : outstanding (h ++ [n]) = after_entry (outstanding h) n.
Proof. rewrite outstanding_app. reflexivity. Qed.
Lemma single_app a b : single (a ++ b) -> single a.
Proof. intros H c. specialize (H c). rewrite arrived_app, app_length in H. lia. Qed.
Lemma causal_app a b : causal (a ++ b) -> causal a.
Proof. intros H x c r y E. apply (H x c r (y ++ b)). rewrite E, <- app_assoc. reflexivity. Qed.
Lemma arrived_in c r l : In r (arrived c l) <-> In (Arrived c r) l.
Proof.
  unfold arrived. rewrite in_flat_map. split.
  - intros (v & I & J). destruct v; try destruct J. destruct (Z.eqb_spec c0 c) as [-> |]; [|destruct J]. destruct J as [-> | []]. exact I.
  - intros I. exists (Arrived c r). split; [exact I|]. rewrite Z.eqb_refl. left. reflexivity.
Qed.
Lemma taken_in c r l : In r (taken c l) <-> In (Took c r) l.
Proof.
  unfold taken. rewrite in_flat_map. split.
  - intros (v & I & J). destruct v; try destruct J. destruct (Z.eqb_spec c0 c) as [-> |]; [|destruct J]. destruct J as [-> | []]. exact I.
  - intros I. exists (Took c r). split; [exact I|]. rewrite Z.eqb_refl. left. reflexivity.
Qed.
Lemma cached_in c r s : In r (cached c s) <-> In (c, r) (p_cache s).
Proof.
  unfold cached. rewrite in_flat_map. split.
  - intros ([k q] & I & J). cbn in J. destruct (Z.eqb_spec k c) as [-> |]; [|destruct J]. destruct J as [-> | []]. exact I.
  - intros I. exists (c, r). split; [exact I|]. cbn. rewrite Z.eqb_refl. left. reflexivity.
Qed.
Lemma causal_request c r l : causal l -> In (Arrived c r) l -> exists d x, d <> 0 /\ In (Request c d x) l.
Proof. intros C I. apply in_split in I. destruct I as (a & b & E). destruct (C a c r b E) as (d & x & N & J). exists d, x. split; [exact N|]. rewrite E. apply in_app_iff. left. exact J. Qed.

(* ---------------------------------------------------------------- C59 *)
Lemma out_get o v s d c : inv o v s -> (In (d, c) o <-> get d (p_descs s) = Some (mk_desc d true c)).
Proof.
  intros I. pose proof (i_reflects _ _ _ I d c) as X. rewrite X. clear X. split.
  - intros J. apply (get_in d (p_descs s) (mk_desc d true c) (i_ordered _ _ _ I) J); reflexivity.
  - intros G. apply get_some in G. tauto.
Qed.
Lemma get_none o v s d : inv o v s -> (~ In d (map fst o) <-> get d (p_descs s) = None).
Proof.
  intros I. split.
  - intros N. destruct (get d (p_descs s)) as [x|] eqn:G; [|reflexivity]. exfalso. apply get_some in G. destruct G as (J & E & A). destruct x as [dx ax cx]. cbn in E, A. subst. apply N. apply in_map_iff. exists (d, cx). split; [reflexivity|]. apply (i_reflects _ _ _ I). exact J.
  - intros G H. apply in_map_iff in H. destruct H as ([d' c] & E & J). cbn in E. subst d'. apply (proj1 (out_get o v s d c I)) in J. congruence.
Qed.
Lemma out_distinct o v s d d' c : inv o v s -> In (d, c) o -> In (d', c) o -> d = d'.
Proof.
  intros I J J'. apply (i_reflects _ _ _ I) in J. apply (i_reflects _ _ _ I) in J'. pose proof (i_corrs _ _ _ I _ J) as [_ P]. specialize (P eq_refl). cbn in P.
  assert (X : mk_desc d true c = mk_desc d' true c) by (apply (i_distinct _ _ _ I); auto; cbn; lia). congruence.
Qed.

Definition plain (o : output) : output := match o with O_error k => O_error (if k =? TPENOENT then TPESVCERR else k) | _ => o end.
Lemma complete_told e c d r s s' o : complete e c d r s = (s', o) -> told d r (plain o).
Proof. unfold complete, told. intros H. injection H as _ <-. destruct (r_code r =? 0); [reflexivity|]. destruct (r_code r =? TPESVCFAIL); reflexivity. Qed.
Lemma getrply_plain e d any nb sg s : getrply e d any nb sg s = let '(s1, o, ev) := get_reply e d any nb sg s in (s1, plain o, ev).
Proof. unfold getrply. destruct (get_reply e d any nb sg s) as [[s1 o] ev]. destruct o; reflexivity. Qed.

(* every outcome of tpgetrply *)
Inductive outcome (e : env) (o : list (Z * Z)) (s : proc) (d : Z) (any nb sg : bool) (s' : proc) (out : output) (ev : list event) : Prop :=
| oc_bad : any = false -> ~ In d (map fst o) -> s' = s -> out = O_error TPEBADDESC -> ev = [] -> outcome e o s d any nb sg s' out ev
| oc_none : (if any then p_cache s = [] else exists c, In (d, c) o /\ cached c s = []) -> s' = s -> no_reply_yet nb sg out -> ev = [] -> outcome e o s d any nb sg s' out ev
| oc_stray c r l : any = true -> p_cache s = (c, r) :: l -> (forall d', ~ In (d', c) o) -> s' = w_cache l s -> out = O_error TPEBADDESC -> ev = [Took c r] -> outcome e o s d any nb sg s' out ev
| oc_took d' c r q l : (if any then p_cache s = (c, r) :: l else d' = d) -> In (d', c) o -> cached c s = r :: q -> told d' r (plain out) -> ev = [Took c r] ->
    s' = w_descs (unreserve d' (p_descs s)) (w_tx (fst (step e (Reply c (r_state r)) (p_tx s))) (w_cache l s)) -> outcome e o s d any nb sg s' out ev.
Lemma get_reply_outcome e o v d any nb sg s s' out ev : inv o v s -> get_reply e d any nb sg s = (s', out, ev) -> outcome e o s d any nb sg s' out ev.
Proof.
  intros I. unfold get_reply, nothing. destruct any.
  - destruct (p_cache s) as [|[c r] l] eqn:C; [intros H; injection H as <- <- <-; apply oc_none; auto; reflexivity|]. pose proof (took_first s c r l C) as T. cbn [p_descs w_cache].
    destruct (get_corr c (p_descs s)) as [x|] eqn:G.
    + apply get_corr_some in G. destruct G as (Ix & Ex & Ax). destruct x as [dx ax cx]. cbn in Ex, Ax. subst. destruct (complete e c _ r (w_cache l s)) as [s2 o2] eqn:CO. intros H. injection H as <- <- <-.
      apply (oc_took _ _ _ _ _ _ _ _ _ _ dx c r (flat_map (fun x => if fst x =? c then [snd x] else []) l) l); auto.
      * apply (i_reflects _ _ _ I). exact Ix.
      * unfold cached. apply take_cached in T. destruct T as (T & _). rewrite T. reflexivity.
      * exact (complete_told _ _ _ _ _ _ _ CO).
      * unfold complete in CO. injection CO as <- _. reflexivity.
    + intros H. injection H as <- <- <-. apply (oc_stray _ _ _ _ _ _ _ _ _ _ c r l); auto. intros d0 J. apply (i_reflects _ _ _ I) in J.
      pose proof (i_corrs _ _ _ I _ J) as [_ P]. specialize (P eq_refl). cbn in P. rewrite (get_corr_in c (p_descs s) _ (i_distinct _ _ _ I) J eq_refl ltac:(lia) eq_refl) in G. discriminate.
  - destruct (get d (p_descs s)) as [x|] eqn:G.
    + apply get_some in G. destruct G as (Ix & Ex & Ax). destruct x as [dx ax cx]. cbn [d_id d_active d_corr] in *. subst. destruct (take (fun m => fst m =? cx) (p_cache s)) as [[[c r] l]|] eqn:T.
      * pose proof (take_fst _ _ _ _ T) as Ec. cbn in Ec. subst c. destruct (complete e cx d r (w_cache l s)) as [s2 o2] eqn:CO. intros H. injection H as <- <- <-.
        apply (oc_took _ _ _ _ _ _ _ _ _ _ d cx r (flat_map (fun x => if fst x =? cx then [snd x] else []) l) l); auto.
        -- apply (i_reflects _ _ _ I). exact Ix.
        -- unfold cached. apply take_cached in T. destruct T as (T & _). rewrite T. reflexivity.
        -- exact (complete_told _ _ _ _ _ _ _ CO).
        -- unfold complete in CO. injection CO as <- _. reflexivity.
      * intros H; injection H as <- <- <-. apply oc_none; auto; [|reflexivity]. exists cx. split; [apply (i_reflects _ _ _ I); exact Ix|].
        destruct (cached cx s) as [|r q] eqn:CC; [reflexivity|]. exfalso. assert (J : In r (cached cx s)) by (rewrite CC; left; reflexivity). apply cached_in in J. pose proof (take_none _ _ T _ J) as N. cbn in N. rewrite Z.eqb_refl in N. discriminate.
    + intros H; injection H as <- <- <-. apply oc_bad; auto. apply (get_none o v s d I). exact G.
Qed.
Lemma told_plain d r o : told d r (plain o) -> told d r (plain (plain o)).
Proof. unfold told. intros H. rewrite H. destruct (r_code r =? 0); [reflexivity|]. destruct (r_code r =? TPESVCFAIL); [reflexivity|]. cbn. destruct (Z.eqb_spec (r_code r) TPENOENT); [reflexivity|]. destruct (Z.eqb_spec (r_code r) TPENOENT); [contradiction|reflexivity]. Qed.
Lemma getrply_outcome e o v d any nb sg s s' out ev : inv o v s -> getrply e d any nb sg s = (s', out, ev) -> outcome e o s d any nb sg s' out ev.
Proof.
  intros I. rewrite getrply_plain. destruct (get_reply e d any nb sg s) as [[s1 o1] ev1] eqn:G. intros H. injection H as <- <- <-. apply (get_reply_outcome _ _ _ _ _ _ _ _ _ _ _ I) in G. destruct G.
  - subst. apply oc_bad; auto.
  - subst. apply oc_none; auto. unfold no_reply_yet in *. subst. destruct nb; [reflexivity|]. destruct sg; reflexivity.
  - subst. apply (oc_stray _ _ _ _ _ _ _ _ _ _ c r l); auto.
  - subst. apply (oc_took _ _ _ _ _ _ _ _ _ _ d' c r q l); auto. apply told_plain. assumption.
Qed.

(* ---------------------------------------------------------------- requests, and what becomes of them *)
Record hist (o : list (Z * Z)) (v : list event) (s : proc) : Prop := {
  h_req : forall c d x, In (Request c d x) v -> c < p_next s;
  h_fate : forall c d x, In (Request c d x) v -> d <> 0 -> In (d, c) o \/ taken c v <> [] \/ In (Discarded c) v;
  h_gone : forall c, single v -> In (Discarded c) v -> cached c s = [] /\ (arrived c v = [] -> In c (p_disc s));
  h_after : forall c a b, single v -> v = a ++ Discarded c :: b -> taken c b = [] }.

Lemma taken_some c r a b : taken c (a ++ Took c r :: b) <> [].
Proof. intros H. assert (I : In r (taken c (a ++ Took c r :: b))) by (apply taken_in, in_app_iff; right; left; reflexivity). rewrite H in I. destruct I. Qed.
Lemma taken_mono c a b : taken c a <> [] -> taken c (a ++ b) <> [].
Proof. rewrite taken_app. destruct (taken c a); [congruence|discriminate]. Qed.

Lemma hist_start d f : hist [] [] (CallModel.start d f).
Proof. split; cbn; try tauto. intros c a b _ E. destruct a; discriminate. Qed.
Lemma snoc_split {A} (v : list A) x a y b : v ++ [x] = a ++ y :: b -> (b = [] /\ a = v /\ x = y) \/ exists b', b = b' ++ [x] /\ v = a ++ y :: b'.
Proof.
  intros E. destruct b as [|z b'] using rev_ind; [left; apply app_inj_tail in E; destruct E; auto|right]. exists b'. rewrite app_comm_cons, app_assoc in E. apply app_inj_tail in E. destruct E as [-> ->]. auto.
Qed.
Lemma after_snoc v x : (forall c a b, single v -> v = a ++ Discarded c :: b -> taken c b = []) -> (forall c r, single v -> x = Took c r -> ~ In (Discarded c) v) ->
  forall c a b, single (v ++ [x]) -> v ++ [x] = a ++ Discarded c :: b -> taken c b = [].
Proof.
  intros H N c a b SI E. apply snoc_split in E. destruct E as [(-> & _) | (b' & -> & E)]; [reflexivity|]. rewrite taken_app, (H c a b' (single_app _ _ SI) E). destruct x as [| | |c' r|]; try reflexivity. cbn. destruct (Z.eqb_spec c' c) as [-> |]; [|reflexivity].
  exfalso. apply (N c r (single_app _ _ SI) eq_refl). rewrite E. apply in_app_iff. right. left. reflexivity.
Qed.
Lemma after_quiet v v' : (forall c a b, single v -> v = a ++ Discarded c :: b -> taken c b = []) -> (forall c r, ~ In (Took c r) v') -> forall c a b, single (v ++ v') -> v ++ v' = a ++ Discarded c :: b -> taken c b = [].
Proof.
  intros H. induction v' as [|x v' IH] using rev_ind; intros N; [rewrite app_nil_r; exact H|]. rewrite app_assoc. apply after_snoc; [apply IH; intros c r I; apply (N c r), in_app_iff; left; exact I|].
  intros c r _ ->. exfalso. apply (N c r), in_app_iff. right. left. reflexivity.
Qed.
Lemma hist_tx o v s t : hist o v s -> hist o v (w_tx t s).
Proof. intros [A B C D]. split; assumption. Qed.
Lemma hist_arrive o v s c r : hist o v s -> hist o (v ++ [Arrived c r]) (arrive c r s).
Proof.
  intros [A B C G]. assert (N : p_next (arrive c r s) = p_next s) by (unfold arrive; destruct (mem c (p_disc s)); reflexivity). split.
  - intros k d x I. rewrite N. apply in_app_iff in I. destruct I as [I | [I | []]]; [exact (A k d x I)|discriminate].
  - intros k d x I Nd. apply in_app_iff in I. destruct I as [I | [I | []]]; [|discriminate]. destruct (B k d x I Nd) as [H | [H | H]]; [auto|right; left; apply taken_mono; exact H|right; right; apply in_app_iff; auto].
  - intros k SI I. apply in_app_iff in I. destruct I as [I | [I | []]]; [|discriminate]. destruct (C k (single_app _ _ SI) I) as (C1 & C2). specialize (SI k). rewrite arrived_app in *. cbn [arrived flat_map] in *. rewrite app_nil_r in *. rewrite app_length in SI.
    unfold arrive. destruct (Z.eqb_spec c k) as [-> | NE].
    + assert (AN : arrived k v = []) by (destruct (arrived k v); [reflexivity|cbn in SI; lia]). specialize (C2 AN). apply mem_spec in C2. rewrite C2. split; [exact C1|]. rewrite AN. discriminate.
    + rewrite app_nil_r. destruct (mem c (p_disc s)) eqn:M.
      * split; [exact C1|]. intros E. specialize (C2 E). cbn. clear -C2 NE. induction (p_disc s) as [|y l IH]; [destruct C2|]. cbn. destruct (Z.eqb_spec y c) as [-> | N2]; [destruct C2 as [C2 | C2]; [contradiction|exact C2]|]. destruct C2 as [-> | C2]; [left; reflexivity|right; auto].
      * split; [|exact C2]. unfold cached in *. cbn [p_cache w_cache]. rewrite flat_map_app, C1. cbn. rewrite (proj2 (Z.eqb_neq c k) NE). reflexivity.
  - apply after_snoc; [exact G|discriminate].
Qed.
Lemma hist_arrivals o l : forall v s, hist o v s -> hist o (v ++ map (fun x => Arrived (fst x) (snd x)) l) (fold_left (fun s x => arrive (fst x) (snd x) s) l s).
Proof.
  induction l as [|x l IH]; intros v s I; cbn; [rewrite app_nil_r; exact I|]. replace (v ++ Arrived (fst x) (snd x) :: map (fun x => Arrived (fst x) (snd x)) l) with ((v ++ [Arrived (fst x) (snd x)]) ++ map (fun x => Arrived (fst x) (snd x)) l) by (rewrite <- app_assoc; reflexivity).
  apply IH. apply hist_arrive. exact I.
Qed.
Lemma hist_discard o v s c : device v s -> hist o v s -> hist o (v ++ [Discarded c]) (discard c s).
Proof.
  intros D [A B C G]. assert (N : p_next (discard c s) = p_next s) by (unfold discard; destruct (take _ _) as [[? ?]|]; [|destruct (mem c (p_disc s))]; reflexivity). split.
  - intros k d x I. rewrite N. apply in_app_iff in I. destruct I as [I | [I | []]]; [exact (A k d x I)|discriminate].
  - intros k d x I Nd. apply in_app_iff in I. destruct I as [I | [I | []]]; [|discriminate]. destruct (B k d x I Nd) as [H | [H | H]]; [auto|right; left; apply taken_mono; exact H|right; right; apply in_app_iff; auto].
  - intros k SI I. pose proof (single_app _ _ SI) as SI'. rewrite arrived_app. cbn [arrived flat_map]. rewrite !app_nil_r. unfold discard.
    destruct (take (fun x => fst x =? c) (p_cache s)) as [[m l]|] eqn:T.
    + pose proof (take_fst _ _ _ _ T) as Em. destruct m as [c' r]. cbn in Em. subst c'. destruct (take_cached _ _ _ _ T) as (T1 & T2). destruct (Z.eq_dec k c) as [-> | NE].
      * destruct (D c) as (S0 & _). assert (L := sub_length _ _ S0). specialize (SI' c). rewrite app_length in L. unfold cached in *. rewrite T1 in L, S0. cbn [length] in L. cbn [p_cache w_cache p_disc].
        split; [destruct (flat_map _ l); [reflexivity|cbn in L; lia]|]. intros E. rewrite E in L. cbn in L. lia.
      * apply in_app_iff in I. destruct I as [I | [I | []]]; [|congruence]. destruct (C k SI' I) as (C1 & C2). unfold cached in *. cbn [p_cache w_cache p_disc]. rewrite <- (T2 k NE). auto.
    + assert (K : cached c s = []).
      { destruct (cached c s) as [|r q] eqn:CC; [reflexivity|]. exfalso. assert (J : In r (cached c s)) by (rewrite CC; left; reflexivity). apply cached_in in J. pose proof (take_none _ _ T _ J) as X. cbn in X. rewrite Z.eqb_refl in X. discriminate. }
      destruct (mem c (p_disc s)) eqn:M.
      * apply in_app_iff in I. destruct I as [I | [I | []]]; [exact (C k SI' I)|]. injection I as ->. split; [exact K|]. intros _. apply mem_spec. exact M.
      * change (cached k (w_disc (p_disc s ++ [c]) s)) with (cached k s). cbn [p_disc w_disc]. apply in_app_iff in I. destruct I as [I | [I | []]].
        -- destruct (C k SI' I) as (C1 & C2). split; [exact C1|]. intros E. apply in_app_iff. left. exact (C2 E).
        -- injection I as ->. split; [exact K|]. intros _. apply in_app_iff. right. left. reflexivity.
  - apply after_snoc; [exact G|discriminate].
Qed.
Lemma hist_discards o l : forall v s, inv o v s -> hist o v s -> hist o (v ++ map Discarded l) (fold_left (fun s c => discard c s) l s).
Proof.
  induction l as [|x l IH]; intros v s I H; cbn; [rewrite app_nil_r; exact H|]. replace (v ++ Discarded x :: map Discarded l) with ((v ++ [Discarded x]) ++ map Discarded l) by (rewrite <- app_assoc; reflexivity).
  apply IH; [apply discard_inv; exact I|]. apply hist_discard; [exact (i_device _ _ _ I)|exact H].
Qed.
Lemma hist_acall e nt nr l s s' out ev o v : hist o v s -> acall e nt nr l s = (s', out, ev) -> hist (fold_left after_event ev o) (v ++ ev) s'.
Proof.
  intros [A B C G]. unfold acall. set (as' := in_transaction s && negb nt).
  assert (W : forall o' v' s', (forall x, In x o -> In x o') -> p_cache s' = p_cache s -> p_disc s' = p_disc s -> (forall k, taken k v' = [] /\ arrived k v' = [] /\ ~ In (Discarded k) v') ->
    p_next s <= p_next s' -> (forall c d x, In (Request c d x) v' -> c < p_next s' /\ (d <> 0 -> In (d, c) o')) -> hist o' (v ++ v') s').
  { intros o' v' s1 O EC ED Q NN R. split.
    - intros c d x I. apply in_app_iff in I. destruct I as [I | I]; [specialize (A c d x I); lia|exact (proj1 (R c d x I))].
    - intros c d x I Nd. apply in_app_iff in I. destruct I as [I | I]; [|left; exact (proj2 (R c d x I) Nd)]. destruct (B c d x I Nd) as [H | [H | H]]; [auto|right; left; apply taken_mono; exact H|right; right; apply in_app_iff; auto].
    - intros c SI I. destruct (Q c) as (Q1 & Q2 & Q3). apply in_app_iff in I. destruct I as [I | I]; [|contradiction]. destruct (C c (single_app _ _ SI) I) as (C1 & C2). rewrite arrived_app, Q2, app_nil_r. unfold cached in *. rewrite EC, ED. auto.
    - apply after_quiet; [exact G|]. intros c r I. apply taken_in in I. rewrite (proj1 (Q c)) in I. destruct I. }
  assert (Q : forall c x, (forall k, taken k [Lookup c] = [] /\ arrived k [Lookup c] = [] /\ ~ In (Discarded k) [Lookup c]) /\
    (forall d k, taken k [Lookup c; Request c d x] = [] /\ arrived k [Lookup c; Request c d x] = [] /\ ~ In (Discarded k) [Lookup c; Request c d x])).
  { intros c x. split; intros; cbn; (split; [reflexivity|]); (split; [reflexivity|]); intuition discriminate. }
  destruct (as' && nr) eqn:NR; [intros H; injection H as <- <- <-; cbn; rewrite app_nil_r; split; assumption|].
  destruct l as [send| | |]; try (intros H; injection H as <- <- <-; cbn [fold_left after_event]; apply W; auto; [apply (Q _ 0)|cbn; lia|cbn; intros ? ? ? [I | []]; discriminate]).
  destruct nr.
  - destruct send; intros H; injection H as <- <- <-; cbn [fold_left after_event Z.eqb]; (apply W; auto; [apply (Q _ 0)|cbn; lia|]).
    + cbn; intros ? ? ? [I | []]; discriminate.
    + cbn. intros c d x [I | [I | []]]; [discriminate|]. injection I as <- <- <-. split; [lia|congruence].
  - destruct (reserve (p_next s) 0 (p_descs s)) as [ds d] eqn:R. cbn [p_tx w_descs w_corr].
    set (t := if as' then fst (step e (ServiceCall (p_next s)) (p_tx s)) else p_tx s).
    assert (TX : (if as' then w_tx (fst (step e (ServiceCall (p_next s)) (p_tx s))) (w_descs ds (w_corr (p_next s + 1) s)) else w_descs ds (w_corr (p_next s + 1) s)) =
      mk_proc ds (p_cache s) (p_disc s) (p_next s + 1) t) by (unfold t; destruct as'; reflexivity).
    rewrite TX. clear TX. destruct send as [code|]; intros H; injection H as <- <- <-.
    + cbn [fold_left after_event]. apply W; auto; [apply (Q _ 0)|cbn; lia|cbn; intros ? ? ? [I | []]; discriminate].
    + set (x := if as' then _ else _). cbn [fold_left after_event]. apply W; auto; [intros y I; destruct (d =? 0); [exact I|apply in_app_iff; left; exact I]|apply (proj2 (Q _ x))|cbn; lia|].
      cbn. intros c0 d0 x0 [I | [I | []]]; [discriminate|]. injection I as <- <- <-. split; [lia|]. intros Nd. destruct (Z.eqb_spec d 0); [contradiction|]. apply in_app_iff. right. left. reflexivity.
Qed.
Lemma hist_took o v s s' c r : p_next s' = p_next s -> p_disc s' = p_disc s -> (forall k, cached k s = [] -> cached k s' = []) -> cached c s <> [] -> hist o v s ->
  hist (fold_left after_event [Took c r] o) (v ++ [Took c r]) s'.
Proof.
  intros EN ED EC NC [A B C G]. cbn [fold_left after_event]. split.
  - intros k d x I. rewrite EN. apply in_app_iff in I. destruct I as [I | [I | []]]; [exact (A k d x I)|discriminate].
  - intros k d x I Nd. apply in_app_iff in I. destruct I as [I | [I | []]]; [|discriminate]. destruct (B k d x I Nd) as [H | [H | H]]; [|right; left; apply taken_mono; exact H|right; right; apply in_app_iff; auto].
    destruct (Z.eq_dec k c) as [-> | NE]; [right; left; apply taken_some|left]. apply filter_In. split; [exact H|]. cbn. apply negb_true_iff, Z.eqb_neq. exact NE.
  - intros k SI I. apply in_app_iff in I. destruct I as [I | [I | []]]; [|discriminate]. destruct (C k (single_app _ _ SI) I) as (C1 & C2). rewrite arrived_app. cbn [arrived flat_map]. rewrite app_nil_r, ED. auto.
  - apply after_snoc; [exact G|]. intros k q SI E J. injection E as <- <-. apply NC. exact (proj1 (C c SI J)).
Qed.
Lemma cached_mono s l k : (forall x, In x l -> In x (p_cache s)) -> cached k s = [] -> forall s', p_cache s' = l -> cached k s' = [].
Proof.
  intros S0 C s' E. destruct (cached k s') as [|r q] eqn:CC; [reflexivity|]. exfalso. assert (J : In r (cached k s')) by (rewrite CC; left; reflexivity). apply cached_in in J. rewrite E in J. apply S0, cached_in in J. rewrite C in J. destruct J.
Qed.
Lemma hist_get_reply e d any nb sg s s' out ev o v : hist o v s -> get_reply e d any nb sg s = (s', out, ev) -> hist (fold_left after_event ev o) (v ++ ev) s'.
Proof.
  intros I. unfold get_reply, nothing. destruct any.
  - destruct (p_cache s) as [|[c r] l] eqn:C; [intros H; injection H as <- <- <-; cbn; rewrite app_nil_r; exact I|]. cbn [p_descs w_cache].
    assert (K : forall k s1, cached k s = [] -> p_cache s1 = l -> cached k s1 = []) by (intros k s1 H E; apply (cached_mono s l k); auto; intros x X; rewrite C; right; exact X).
    assert (NC : cached c s <> []) by (intros Z0; assert (J : In r (cached c s)) by (apply cached_in; rewrite C; left; reflexivity); rewrite Z0 in J; destruct J).
    destruct (get_corr c (p_descs s)) as [x|]; intros H; [unfold complete in H|]; injection H as <- <- <-; (apply (hist_took o v s); [reflexivity|reflexivity|intros k Hk; apply (K k); [exact Hk|reflexivity]|exact NC|exact I]).
  - destruct (get d (p_descs s)) as [x|]; [|intros H; injection H as <- <- <-; cbn; rewrite app_nil_r; exact I].
    destruct (take (fun m => fst m =? d_corr x) (p_cache s)) as [[[c r] l]|] eqn:T; [|intros H; injection H as <- <- <-; cbn; rewrite app_nil_r; exact I].
    assert (K : forall k s1, cached k s = [] -> p_cache s1 = l -> cached k s1 = []).
    { intros k s1 H E; apply (cached_mono s l k); auto. apply take_some in T. destruct T as (a & b & E1 & -> & _). rewrite E1. intros y Y. apply in_app_iff in Y. apply in_app_iff. destruct Y; [left|right; right]; assumption. }
    assert (NC : cached c s <> []).
    { intros Z0. apply take_some in T. destruct T as (a & b & E1 & _). assert (J : In r (cached c s)) by (apply cached_in; rewrite E1; apply in_app_iff; right; left; reflexivity). rewrite Z0 in J. destruct J. }
    intros H. unfold complete in H. injection H as <- <- <-. apply (hist_took o v s); [reflexivity|reflexivity|intros k Hk; apply (K k); [exact Hk|reflexivity]|exact NC|exact I].
Qed.
Lemma hist_cancel d s s' out ev o v : inv o v s -> hist o v s -> cancel d s = (s', out, ev) -> hist (after_entry o (Tpcancel d, out, ev)) (v ++ ev) s'.
Proof.
  intros V I. unfold cancel. destruct (get d (p_descs s)) as [x|] eqn:G; [|intros H; injection H as <- <- <-; cbn; rewrite app_nil_r; exact I].
  destruct (associated (d_corr x) (p_tx s)); [intros H; injection H as <- <- <-; cbn; rewrite app_nil_r; exact I|].
  intros H; injection H as <- <- <-. cbn [after_entry fold_left after_event]. destruct (hist_discard o v s (d_corr x) (i_device _ _ _ V) I) as [A B C G']. split; [exact A| |exact C|exact G'].
  intros k d0 y J Nd. destruct (B k d0 y J Nd) as [H | H]; [|auto]. destruct (Z.eq_dec d0 d) as [-> | NE].
  - right. right. apply (proj1 (out_get o v s d k V)) in H. rewrite G in H. injection H as ->. cbn. apply in_app_iff. right. left. reflexivity.
  - left. apply filter_In. split; [exact H|]. cbn. apply negb_true_iff, Z.eqb_neq. exact NE.
Qed.
Lemma hist_tpcall e nt l arr s s' out ev o v : hist o v s -> tpcall e nt l arr s = (s', out, ev) -> hist (fold_left after_event ev o) (v ++ ev) s'.
Proof.
  intros I. unfold tpcall. set (su := in_transaction s && negb nt). destruct (if su then sync_suspend e (p_tx s) else (p_tx s, true)) as [t1 ok] eqn:SU.
  destruct ok; [|intros H; injection H as <- <- <-; cbn; rewrite app_nil_r; apply hist_tx; exact I].
  destruct (acall e nt false l (w_tx t1 s)) as [[s2 o2] ev2] eqn:AC. pose proof (hist_acall e nt false l _ _ _ _ o v (hist_tx _ _ _ t1 I) AC) as I2.
  assert (D : (exists d, o2 = O_descriptor d) \/ (forall d, o2 <> O_descriptor d)) by (destruct o2; eauto; right; discriminate). destruct D as [(d & ->) | D].
  - destruct (get_reply e d false false true _) as [[s4 o4] ev4] eqn:G. pose proof (hist_get_reply _ _ _ _ _ _ _ _ _ _ _ (hist_arrivals _ arr _ _ I2) G) as I4.
    intros H. injection H as <- <- <-. rewrite !fold_events_app, arrivals_quiet, !app_assoc. destruct su; [apply hist_tx|]; exact I4.
  - intros H. assert (E : (if su then w_tx (sync_resume e (p_tx s2)) s2 else s2, o2, ev2 ++ []) = (s', out, ev)) by (destruct o2; try exact H; exfalso; eapply D; reflexivity).
    injection E as <- <- <-. rewrite app_nil_r. destruct su; [apply hist_tx|]; exact I2.
Qed.
Lemma hist_step e i s s' out ev o v : inv o v s -> hist o v s -> xstep e i s = (s', out, ev) -> hist (after_entry o (i, out, ev)) (v ++ ev) s'.
Proof.
  intros V I H. destruct i as [nt nr l|d any nb sg|d|nt l arr|c r|i]; cbn [xstep] in H.
  - exact (hist_acall e nt nr l s s' out ev o v I H).
  - rewrite getrply_plain in H. destruct (get_reply e d any nb sg s) as [[s1 o1] ev1] eqn:G. injection H as <- <- <-. exact (hist_get_reply e d any nb sg s s1 o1 ev1 o v I G).
  - exact (hist_cancel d s s' out ev o v V I H).
  - exact (hist_tpcall e nt l arr s s' out ev o v I H).
  - injection H as <- <- <-. exact (hist_arrive o v s c r I).
  - destruct i; cbn [xstep] in H;
      try (match type of H with (let '(_, _) := ?X in _) = _ => destruct X as [tt rr] end; injection H as <- <- <-; cbn [after_entry fold_left]; rewrite app_nil_r; apply hist_tx; exact I);
      try (injection H as <- <- <-; cbn [after_entry fold_left]; rewrite app_nil_r; exact I).
    destruct (step e _ _) as [t r]. injection H as <- <- <-. cbn [after_entry]. rewrite discards_quiet. apply hist_tx. apply hist_discards; assumption.
Qed.
Lemma run_hist e is : forall s s' h o v, inv o v s -> hist o v s -> xrun e is s = (s', h) -> hist (fold_left after_entry h o) (v ++ events h) s'.
Proof.
  induction is as [|i is IH]; intros s s' h o v V I H; cbn in H.
  - injection H as <- <-. cbn. rewrite app_nil_r. exact I.
  - destruct (xstep e i s) as [[s1 out] ev] eqn:ST. destruct (xrun e is s1) as [s2 h2] eqn:R. injection H as <- <-. cbn [fold_left events flat_map snd]. rewrite app_assoc. apply (IH s1); [exact (step_inv e i s s1 out ev o v V ST)| |exact R]. exact (hist_step e i s s1 out ev o v V I ST).
Qed.
Lemma reach_hist e dyn fix0 is s h : xrun e is (CallModel.start dyn fix0) = (s, h) -> hist (outstanding h) (events h) s.
Proof. intros R. exact (run_hist e is _ _ _ [] [] (inv_start dyn fix0) (hist_start dyn fix0) R). Qed.
