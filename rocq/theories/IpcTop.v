(* The operations of the inbound device and histories. *)
From Coq Require Import ZArith List Bool Arith Lia Permutation.
From Verif Require Import IpcModel IpcSpec IpcChunk IpcProj IpcAcct.
Import ListNotations.

Definition keyed (p : complete -> bool) : Prop := forall x y, c_key x = c_key y -> is_complete x = true -> is_complete y = true -> p x = p y.
Definition inv (max : nat) (cache : list complete) (W : list transport) : Prop := forall k, exists l, acct false max k cache W l.
(* from (cache, W) to (cache', W'), with the messages new added and r reported *)
Definition moves (max : nat) (cache : list complete) (W : list transport) (new : list msg) (r : list report) (cache' : list complete) (W' : list transport) (K : Prop) : Prop :=
  ~ In Raised r /\ forall ord k l, (ord = true -> of_key k new = []) -> acct ord max k cache W l ->
    exists l', acct ord max k cache' W' l' /\ Permutation (of_key k new ++ l) (of_key k (consumed r) ++ l') /\
      (ord = true -> K -> sub (of_key k (delivered r) ++ l') l).

Lemma of_key_app k a b : of_key k (a ++ b) = of_key k a ++ of_key k b.
Proof. apply filter_app. Qed.
Lemma consumed_app a b : consumed (a ++ b) = consumed a ++ consumed b.
Proof. apply flat_map_app. Qed.
Lemma delivered_app a b : delivered (a ++ b) = delivered a ++ delivered b.
Proof. apply flat_map_app. Qed.

Lemma inv_moves max cache W new r cache' W' K : inv max cache W -> moves max cache W new r cache' W' K -> inv max cache' W'.
Proof. intros Hi (_ & H) k. destruct (Hi k) as (l & A). destruct (H false k l ltac:(discriminate) A) as (l' & A' & _). eauto. Qed.

Lemma moves_refl max cache W K : moves max cache W [] [] cache W K.
Proof. split; [intros []|]. intros ord k l _ A. exists l. cbn. split; [exact A|]. split; [apply Permutation_refl|]. intros _ _. apply sub_refl. Qed.

Lemma moves_trans max c0 W0 n1 r1 c1 W1 n2 r2 c2 W2 K : moves max c0 W0 n1 r1 c1 W1 K -> moves max c1 W1 n2 r2 c2 W2 K ->
  moves max c0 W0 (n1 ++ n2) (r1 ++ r2) c2 W2 K.
Proof.
  intros (A1 & B1) (A2 & B2). split; [rewrite in_app_iff; tauto|]. intros ord k l Hord A. rewrite of_key_app in *.
  destruct (B1 ord k l) as (l1 & X1 & Y1 & Z1); [intros H; specialize (Hord H); apply app_eq_nil in Hord; tauto|exact A|].
  destruct (B2 ord k l1) as (l2 & X2 & Y2 & Z2); [intros H; specialize (Hord H); apply app_eq_nil in Hord; tauto|exact X1|].
  exists l2. split; [exact X2|]. split.
  - rewrite consumed_app, of_key_app, <- !app_assoc.
    transitivity (of_key k n2 ++ of_key k n1 ++ l); [rewrite !app_assoc; apply Permutation_app_tail, Permutation_app_comm|].
    rewrite Y1. transitivity (of_key k (consumed r1) ++ of_key k n2 ++ l1); [rewrite !app_assoc; apply Permutation_app_tail, Permutation_app_comm|].
    apply Permutation_app_head. exact Y2.
  - intros Ho HK. rewrite delivered_app, of_key_app, <- app_assoc. eapply sub_trans; [|apply (Z1 Ho HK)]. apply sub_app; [apply sub_refl|apply (Z2 Ho HK)].
Qed.

Lemma moves_weaken max c0 W0 n r c1 W1 (K K' : Prop) : (K' -> K) -> moves max c0 W0 n r c1 W1 K -> moves max c0 W0 n r c1 W1 K'.
Proof. intros H (A & B). split; [exact A|]. intros ord k l Ho X. destruct (B ord k l Ho X) as (l' & P & Q & R). exists l'. auto. Qed.

Lemma moves_take max p cache c cache' W : (forall x, p x = true -> is_complete x = true) -> take_first p cache = Some (c, cache') ->
  moves max cache W [] [Got (msg_of c)] cache' W (keyed p).
Proof.
  intros Hp T. split; [intros [H|[]]; discriminate|]. intros ord k l _ A. destruct (take_first_spec _ _ _ _ T) as (a & b & _ & _ & Hpc & _).
  destruct (take_one max p cache c cache' ord k W l T (Hp c Hpc) A) as (l' & X & Y & _ & Z). exists l'. split; [exact X|]. split; [exact Y|].
  intros Ho HK. cbn [delivered flat_map app]. rewrite <- Z; auto; [apply sub_refl|]. intros x Hx Hc. rewrite (HK x c Hx Hc (Hp c Hpc)). exact Hpc.
Qed.

Lemma find_moves max p F : 0 < max -> (forall x, p x = true -> is_complete x = true) -> forall wire cache disc, inv max cache (wire ++ F) ->
  let s := fst (find p wire cache disc) in let r := snd (find p wire cache disc) in moves max cache (wire ++ F) [] r (i_cache s) (i_wire s ++ F) (keyed p).
Proof.
  intros Hm Hp. induction wire as [|t wire IH]; intros cache disc Hi; cbn [find].
  - destruct (take_first p cache) as [[c cache']|] eqn:T; cbn [fst snd i_cache i_wire].
    + apply (moves_take max p cache c cache'); auto.
    + pose proof (moves_refl max cache ([] ++ F) (keyed p)) as M. destruct M as [M1 M2]. split; [intros [H|[]]; discriminate|]. exact M2.
  - destruct (take_first p cache) as [[c cache']|] eqn:T; cbn [fst snd i_cache i_wire].
    + apply (moves_take max p cache c cache'); auto.
    + destruct (recv_one max t (wire ++ F) cache Hm Hi) as (a & c & b & E & K1 & K2). rewrite E. destruct (drop c disc) eqn:D.
      * unfold drop in D. apply andb_true_iff in D. destruct D as [_ Hc]. specialize (K2 Hc).
        assert (M : moves max cache (t :: wire ++ F) [] [Dropped (msg_of c)] (a ++ b) (wire ++ F) (keyed p)).
        { split; [intros [H|[]]; discriminate|]. intros ord k l _ A. destruct (K2 ord k l A) as (l' & X & Y & Z). exists l'. split; [exact X|]. split; [exact Y|].
          intros Ho _. cbn. apply Z, Ho. }
        pose proof (inv_moves _ _ _ _ _ _ _ _ Hi M) as Hi'. specialize (IH (a ++ b) (erase1 (c_corr c) disc) Hi'). cbn zeta in IH.
        destruct (find p wire (a ++ b) (erase1 (c_corr c) disc)) as [s r]. cbn [fst snd] in *.
        apply (moves_trans _ _ _ [] [Dropped (msg_of c)] _ _ [] r _ _ _ M IH).
      * assert (M : moves max cache (t :: wire ++ F) [] [] (a ++ c :: b) (wire ++ F) (keyed p)).
        { split; [intros []|]. intros ord k l _ A. destruct (K1 ord k l A) as (l' & X & Y & Z). exists l'. split; [exact X|]. split; [exact Y|].
          intros Ho _. cbn. rewrite (Z Ho). apply sub_refl. }
        pose proof (inv_moves _ _ _ _ _ _ _ _ Hi M) as Hi'. specialize (IH (a ++ c :: b) disc Hi'). cbn zeta in IH.
        apply (moves_trans _ _ _ [] [] _ _ [] _ _ _ _ M IH).
Qed.

Definition kind (s : sel) : Prop := forall m m', m_key m = m_key m' -> selects s m = selects s m'.
Lemma kind_sel s : (forall p, s <> Where p) -> kind s.
Proof. intros H m m' E. unfold m_key in E. injection E as E1 E2. destruct s; cbn; rewrite ?E1, ?E2; try reflexivity. exfalso. apply (H p). reflexivity. Qed.
Lemma keyed_sel s : kind s -> keyed (fun c => is_complete c && selects s (msg_of c)).
Proof. intros H x y E Hx Hy. rewrite Hx, Hy. cbn. apply H. exact E. Qed.

Lemma select_moves max s i F : 0 < max -> inv max (i_cache i) (i_wire i ++ F) ->
  moves max (i_cache i) (i_wire i ++ F) [] (snd (select s i)) (i_cache (fst (select s i))) (i_wire (fst (select s i)) ++ F) (kind s).
Proof.
  intros Hm Hi. eapply moves_weaken; [apply keyed_sel|]. apply (find_moves max _ F Hm); [|exact Hi]. intros x H. apply andb_true_iff in H. tauto.
Qed.

Lemma consumed_drops r : consumed (drops r) = consumed r.
Proof. induction r as [|[] r IH]; [reflexivity|..]; unfold drops, consumed in *; cbn [flat_map app]; rewrite ?IH; reflexivity. Qed.
Lemma delivered_drops r : delivered (drops r) = [].
Proof. induction r as [|[] r IH]; [reflexivity|..]; unfold drops, delivered in *; cbn [flat_map app]; exact IH. Qed.
Lemma raised_drops r : In Raised (drops r) -> In Raised r.
Proof. unfold drops. rewrite in_flat_map. intros (x & Hx & H). destruct x; cbn in H; [destruct H as [H|[]]; discriminate|destruct H as [H|[]]; discriminate|contradiction|exact Hx]. Qed.
Lemma sub_nil_l {A} (l : list A) : sub [] l.
Proof. induction l; constructor; auto. Qed.
Lemma sub_tail {A} (a b l : list A) : sub (a ++ b) l -> sub b l.
Proof. intros H. eapply sub_trans; [|exact H]. change b with ([] ++ b) at 1. apply sub_app; [apply sub_nil_l|apply sub_refl]. Qed.
Lemma moves_drops max c0 W0 n r c1 W1 K : moves max c0 W0 n r c1 W1 K -> moves max c0 W0 n (drops r) c1 W1 K.
Proof.
  intros (A & B). split; [intros H; apply A, raised_drops, H|]. intros ord k l Ho X. destruct (B ord k l Ho X) as (l' & P & Q & R). exists l'.
  rewrite consumed_drops, delivered_drops. split; [exact P|]. split; [exact Q|]. intros H1 H2. cbn. eapply sub_tail. exact (R H1 H2).
Qed.

Lemma flush_moves max F : 0 < max -> forall n i, inv max (i_cache i) (i_wire i ++ F) ->
  moves max (i_cache i) (i_wire i ++ F) [] (snd (flush n i)) (i_cache (fst (flush n i))) (i_wire (fst (flush n i)) ++ F) True.
Proof.
  intros Hm. induction n as [|n IH]; intros i Hi; cbn [flush]; [apply moves_refl|].
  pose proof (select_moves max (Of_type flush_ipc) i F Hm Hi) as M. destruct (select (Of_type flush_ipc) i) as [i1 r1]. cbn [fst snd] in M.
  assert (M' : moves max (i_cache i) (i_wire i ++ F) [] (drops r1) (i_cache i1) (i_wire i1 ++ F) True).
  { apply moves_drops. eapply moves_weaken; [|exact M]. intros _. apply kind_sel. discriminate. }
  destruct (got r1); [|exact M'].
  pose proof (inv_moves _ _ _ _ _ _ _ _ Hi M') as Hi'. specialize (IH i1 Hi'). destruct (flush n i1) as [i2 r2]. cbn [fst snd] in *.
  apply (moves_trans _ _ _ [] _ _ _ [] _ _ _ _ M' IH).
Qed.

Lemma raised_no r : ~ In Raised r -> raised r = false.
Proof. intros H. unfold raised. destruct (existsb _ r) eqn:E; [|reflexivity]. apply existsb_exists in E. destruct E as (x & Hx & E). destruct x; try discriminate. contradiction. Qed.

Lemma find_take (q : complete -> bool) l c : List.find q l = Some c -> exists l', take_first q l = Some (c, l').
Proof.
  induction l as [|x l IH]; cbn; [discriminate|]. destruct (q x) eqn:E; [intros [= <-]; eauto|]. intros H. destruct (IH H) as (l' & ->). eauto.
Qed.

Lemma discard_moves max F c i : 0 < max -> inv max (i_cache i) (i_wire i ++ F) ->
  moves max (i_cache i) (i_wire i ++ F) [] (snd (discard c i)) (i_cache (fst (discard c i))) (i_wire (fst (discard c i)) ++ F) True.
Proof.
  intros Hm Hi. pose proof (flush_moves max F Hm batch_flush i Hi) as M. unfold discard. destruct (flush batch_flush i) as [i1 r1]. cbn [fst snd] in M.
  rewrite (raised_no r1 (proj1 M)). destruct (List.find _ (i_cache i1)) as [x|] eqn:E; [|exact M]. destruct (is_complete x) eqn:Ex; [|exact M].
  destruct (find_take _ _ _ E) as (l' & T). rewrite T. cbn [fst snd i_cache i_wire].
  apply (moves_trans _ _ _ [] _ _ _ [] _ _ _ _ M). split; [intros [H|[]]; discriminate|]. intros ord k l _ A.
  destruct (take_one max _ _ _ _ ord k _ l T Ex A) as (l2 & X & Y & Z & _). exists l2. split; [exact X|]. split; [exact Y|]. intros Ho _. cbn. exact (Z Ho).
Qed.

Lemma push_moves max F m i : 0 < max -> inv max (i_cache i) (i_wire i ++ F) ->
  moves max (i_cache i) (i_wire i ++ F) [m] (snd (push m i)) (i_cache (fst (push m i))) (i_wire (fst (push m i)) ++ F) True.
Proof.
  intros Hm Hi. pose proof (flush_moves max F Hm 1 i Hi) as M. unfold push. destruct (flush 1 i) as [i1 r1]. cbn [fst snd] in M.
  rewrite (raised_no r1 (proj1 M)). cbn [fst snd i_cache i_wire].
  rewrite <- (app_nil_r r1). apply (moves_trans _ _ _ [] _ _ _ [m] _ _ _ _ M). split; [intros []|]. intros ord k l Hord A.
  rewrite of_key_one in *. destruct (m_is k m) eqn:Ek.
  - destruct ord; [specialize (Hord eq_refl); discriminate|]. destruct A as (ms & p & rest & R & G & ->). exists ((ms ++ [m]) ++ rest). split.
    + exists (ms ++ [m]), p, rest. split; [|auto]. rewrite proj_app, proj_one. unfold c_is. change (c_key (whole m)) with (m_key m). unfold m_is in Ek. rewrite Ek.
      destruct p as [[m' j]|].
      * destruct R as (a & c & b & E1 & E2 & E3 & E4 & _). exists a, c, (b ++ [whole m]). rewrite E1, <- app_assoc. split; [reflexivity|].
        rewrite app_assoc, E2, map_app. split; [reflexivity|]. split; [exact E3|]. split; [exact E4|discriminate].
      * cbn [rep] in *. rewrite R, map_app. reflexivity.
    + split; [|discriminate]. cbn. rewrite <- app_assoc. cbn. apply Permutation_middle.
  - exists l. split; [|split; [apply Permutation_refl|intros _ _; apply sub_refl]]. destruct A as (ms & p & rest & R & G & ->). exists ms, p, rest. split; [|auto].
    rewrite proj_app, proj_one. unfold c_is. change (c_key (whole m)) with (m_key m). unfold m_is in Ek. rewrite Ek, app_nil_r. exact R.
Qed.

Lemma cached_moves max s i W : moves max (i_cache i) W [] (snd (cached s i)) (i_cache (fst (cached s i))) W (kind s).
Proof.
  unfold cached. destruct (take_first _ (i_cache i)) as [[c cache']|] eqn:T; cbn [fst snd i_cache].
  - eapply moves_weaken; [apply keyed_sel|]. apply (moves_take max _ _ _ _ W); [|exact T]. intros x H. apply andb_true_iff in H. tauto.
  - pose proof (moves_refl max (i_cache i) W (kind s)) as (_ & M). split; [intros [H|[]]; discriminate|exact M].
Qed.
Lemma cached_wire s i : i_wire (fst (cached s i)) = i_wire i.
Proof. unfold cached. destruct (take_first _ _) as [[c l]|]; reflexivity. Qed.

Lemma run_moves max F0 : 0 < max -> forall l i, ~ In Clear l -> inv max (i_cache i) (i_wire i ++ arrivals l ++ F0) ->
  moves max (i_cache i) (i_wire i ++ arrivals l ++ F0) (pushed l) (snd (run l i)) (i_cache (fst (run l i))) (i_wire (fst (run l i)) ++ F0) (by_key l).
Proof.
  intros Hm. induction l as [|o l IH]; intros i Hc Hi.
  - cbn. apply moves_refl.
  - cbn [run]. set (F := arrivals l ++ F0).
    assert (M : moves max (i_cache i) (i_wire i ++ arrivals (o :: l) ++ F0) (pushed [o]) (snd (step o i)) (i_cache (fst (step o i))) (i_wire (fst (step o i)) ++ F) (by_key (o :: l))).
    { destruct o as [t|s|s|c|m|n|]; cbn [step pushed flat_map app]; unfold arrivals in Hi |- *; cbn [flat_map app] in Hi |- *; fold (arrivals l) in Hi |- *; change (arrivals l ++ F0) with F in Hi |- *.
      - cbn [fst snd i_cache i_wire]. rewrite <- app_assoc. apply moves_refl.
      - eapply moves_weaken; [|apply (select_moves max s i F Hm Hi)]. intros K. apply kind_sel. intros p ->. apply (proj1 (K p)). left. reflexivity.
      - rewrite cached_wire. eapply moves_weaken; [|apply cached_moves]. intros K. apply kind_sel. intros p ->. apply (proj2 (K p)). left. reflexivity.
      - eapply moves_weaken; [|apply (discard_moves max F c i Hm Hi)]. auto.
      - eapply moves_weaken; [|apply (push_moves max F m i Hm Hi)]. auto.
      - eapply moves_weaken; [|apply (flush_moves max F Hm n i Hi)]. auto.
      - exfalso. apply Hc. left. reflexivity. }
    pose proof (inv_moves _ _ _ _ _ _ _ _ Hi M) as Hi'. destruct (step o i) as [i1 r1]. cbn [fst snd] in *.
    specialize (IH i1 (fun H => Hc (or_intror H)) Hi'). destruct (run l i1) as [i2 r2]. cbn [fst snd] in *.
    change (pushed (o :: l)) with (pushed ([o] ++ l)). replace (pushed ([o] ++ l)) with (pushed [o] ++ pushed l) by (symmetry; apply flat_map_app).
    apply (moves_trans _ _ _ _ _ _ _ _ _ _ _ _ M). eapply moves_weaken; [|exact IH]. intros K p. destruct (K p) as [A B]. split; intros H; [apply A|apply B]; right; exact H.
Qed.

Lemma start_acct max sent l ord k : proper max sent l -> acct ord max k [] (arrivals l) (sent k).
Proof. intros (_ & _ & H). exists [], None, (sent k). split; [reflexivity|]. split; [apply H|reflexivity]. Qed.

Lemma stream_empty max k ms : 0 < max -> stream max k ms [] -> ms = [].
Proof.
  intros Hm H. inversion H as [|m ts more Hk Hmore T|m ms' t1 t2 Hk T S' E1 E2]; subst; [reflexivity|reflexivity|].
  apply app_eq_nil in E2. destruct E2 as [-> _]. exfalso. eapply transmits_nonempty; [|exact T]. pose proof (datagrams_len max m Hm). lia.
Qed.

Lemma filter_comm {A} (p q : A -> bool) l : filter p (filter q l) = filter q (filter p l).
Proof.
  induction l as [|x l IH]; [reflexivity|]. cbn [filter]. destruct (q x) eqn:Q, (p x) eqn:P; cbn [filter]; rewrite ?Q, ?P, IH; reflexivity.
Qed.
Lemma of_key_map k l : of_key k (map msg_of l) = map msg_of (proj k l).
Proof. induction l as [|c l IH]; [reflexivity|]. unfold of_key, proj in *. cbn [map filter]. rewrite m_is_msg. destruct (c_is k c); cbn [map]; rewrite IH; reflexivity. Qed.
Lemma filter_all {A} (p : A -> bool) l : forallb p l = true -> filter p l = l.
Proof. induction l as [|x l IH]; [reflexivity|]. cbn. intros H. apply andb_true_iff in H. destruct H as [-> H]. rewrite IH; auto. Qed.

Lemma acct_ready ord max k i W l : 0 < max -> acct ord max k (i_cache i) W l -> exists rest, l = of_key k (ready i) ++ rest /\ (W = [] -> rest = []).
Proof.
  intros Hm (ms & p & rest & R & F & ->). exists rest. split.
  - f_equal. unfold ready. rewrite of_key_map. unfold proj. rewrite filter_comm. fold (proj k (i_cache i)). destruct p as [[m j]|].
    + destruct R as (a & c & b & E & E2 & P & Hj & _). rewrite E. rewrite filter_app. cbn [filter]. rewrite (partial_incomplete _ _ _ _ Hm P) by lia.
      rewrite <- filter_app, E2, filter_all by apply wholes_complete. apply unwholes. reflexivity.
    + cbn [rep] in R. rewrite R, filter_all by apply wholes_complete. apply unwholes. reflexivity.
  - intros ->. cbn in F. destruct p as [[m j]|].
    + destruct F as (_ & [(t1 & t2 & rest' & E & _ & T & _)|(-> & _)]); [|reflexivity]. symmetry in E. apply app_eq_nil in E. destruct E as [-> _].
      destruct R as (a & c & b & _ & _ & _ & Hj & _). exfalso. eapply transmits_nonempty; [|exact T]. lia.
    + cbn in F. eapply stream_empty; eauto.
Qed.

Lemma proper_moves max sent l : proper max sent l ->
  moves max [] (arrivals l) (pushed l) (snd (run l empty)) (i_cache (fst (run l empty))) (i_wire (fst (run l empty))) (by_key l).
Proof.
  intros P. pose proof P as (Hm & Hc & _). pose proof (run_moves max [] Hm l empty Hc) as R. cbn [empty i_cache i_wire app] in R. rewrite !app_nil_r in R. apply R. intros k. exists (sent k). apply start_acct. exact P.
Qed.

Theorem never_raised max sent l s r : proper max sent l -> run l empty = (s, r) -> ~ In Raised r.
Proof. intros P E. destruct (proper_moves max sent l P) as (A & _). rewrite E in A. exact A. Qed.

Theorem exactly_once max sent l s r k : proper max sent l -> run l empty = (s, r) ->
  exists rest, Permutation (sent k ++ of_key k (pushed l)) (of_key k (consumed r) ++ of_key k (ready s) ++ rest) /\ (i_wire s = [] -> rest = []).
Proof.
  intros P E. destruct (proper_moves max sent l P) as (_ & B). rewrite E in B. cbn [fst snd] in B.
  destruct (B false k (sent k) ltac:(discriminate) (start_acct _ _ _ false k P)) as (l' & A & Q & _).
  destruct (acct_ready _ _ _ _ _ _ (proj1 P) A) as (rest & -> & H). exists rest. split; [|exact H]. rewrite Permutation_app_comm. exact Q.
Qed.

Theorem in_order max sent l s r k : proper max sent l -> by_key l -> of_key k (pushed l) = [] -> run l empty = (s, r) ->
  exists rest, sub (of_key k (delivered r) ++ of_key k (ready s) ++ rest) (sent k) /\ (i_wire s = [] -> rest = []) /\
    (of_key k (dropped r) = [] -> sent k = of_key k (delivered r) ++ of_key k (ready s) ++ rest).
Proof.
  intros P K N E. destruct (proper_moves max sent l P) as (_ & B). rewrite E in B. cbn [fst snd] in B.
  destruct (B true k (sent k) (fun _ => N) (start_acct _ _ _ true k P)) as (l' & A & Q & Z). specialize (Z eq_refl K). rewrite N in Q. cbn [app] in Q.
  destruct (acct_ready _ _ _ _ _ _ (proj1 P) A) as (rest & -> & H). exists rest. split; [exact Z|]. split; [exact H|].
  intros D. symmetry. apply sub_eq; [exact Z|]. apply Permutation_length in Q. rewrite Q.
  replace (of_key k (consumed r)) with (of_key k (delivered r)); [reflexivity|].
  clear - D. induction r as [|x r IH]; [reflexivity|]. destruct x; unfold consumed, delivered, dropped in *; cbn [flat_map app] in *; auto.
  - unfold of_key in *. cbn [filter] in *. destruct (m_is k m); [f_equal|]; auto.
  - unfold of_key in *. cbn [filter] in *. destruct (m_is k m); [discriminate|]; auto.
Qed.
