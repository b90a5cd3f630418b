(* The discovery: each thing it does keeps what it has in order. *)
From Coq Require Import ZArith List Bool Lia.
From Verif Require Import DscModel DscSpec DscProofs DscHold DscEnv DscDyn.
Import ListNotations.
Local Open Scope Z_scope.

Lemma all_failed_iff ws : all_failed ws = true <-> forall k p, ~ In (k, p, false) ws.
Proof.
  unfold all_failed. rewrite forallb_forall. split.
  - intros H k p I. specialize (H _ I). discriminate.
  - intros H [[k p] b] I. cbn. destruct b; [auto|]. destruct (H _ _ I).
Qed.
Lemma nodup_app {A} (a b : list A) : NoDup a -> NoDup b -> (forall x, In x a -> ~ In x b) -> NoDup (a ++ b).
Proof.
  induction a as [|x a IH]; intros A1 B1 D; [auto|]. cbn. inversion A1 as [|? ? N A2]; subst. constructor.
  - rewrite in_app_iff. intros [I|I]; [auto|]. apply (D x); cbn; auto.
  - apply IH; auto. intros y I. apply D. cbn. auto.
Qed.

Section Ops.
Variables (h : history) (i : input) (ev : list effect).
Let H := h ++ [(i, ev)].
Hypothesis same_config : configured H = configured h.
Hypothesis same_lost : forall p, lost p H -> lost p h.
Definition shown (l : list effect) : Prop := forall e, In e l -> asked_of e <> None -> In e ev.
Definition good (r : state * list effect) : Prop := dyn H (fst r) /\ env H (fst r) /\ Forall (fine h i H) (snd r).
Lemma shown_app a b : shown (a ++ b) -> shown a /\ shown b.
Proof. intro S. split; intros e I; apply S; apply in_app_iff; auto. Qed.
Lemma shown_open l e : shown l -> In e l -> asked_of e <> None -> open e H.
Proof. intros S I N. apply open_snoc. left. auto. Qed.

Lemma dyn_next s n : s_next s <= n -> dyn H s -> dyn H (with_next n s).
Proof. intros L Y. pose proof (y_fresh _ _ Y) as F. destruct Y. split; auto. cbn. intros k I. specialize (F k I). lia. Qed.
(* asking *)
Lemma ask_ok (a : ability) (f : proc -> Z -> effect) s s' ev' ws : ask f (with_ability a s) s = (s', ev', ws) -> env H s -> dyn H s ->
  s' = with_next (s_next s') s /\ env H s' /\ dyn H s' /\ s_next s <= s_next s' /\ ev' = map (fun x => f (snd x) (fst x)) ws /\ NoDup (map fst ws) /\ (forall x, In x ws -> s_next s <= fst x < s_next s') /\
  (forall k p, In (k, p) ws -> In (f p k) ev' /\ provides a p H /\ ~ lost (p_ipc p) H) /\ (forall p, provides a p H -> ~ lost (p_ipc p) h -> exists k, In (k, p) ws).
Proof.
  intros E N Y. pose proof (ask_spec f (with_ability a s) s) as A. rewrite E in A. destruct A as (A & B & C & D & F & G). split; [auto|].
  split; [apply (env_fixed H s); [rewrite A; reflexivity|auto]|]. split; [rewrite A; now apply dyn_next|]. split; [auto|]. split; [auto|]. split; [auto|]. split; [auto|]. split.
  - intros k p I. split; [rewrite C; apply in_map_iff; exists (k, p); auto|]. apply (in_map snd) in I. rewrite G in I. apply filter_In in I as [I L]. cbn in I, L. split; [now apply (provides_iff H s)|]. intro X. apply (gone_lost H s) in X; auto. rewrite X in L. discriminate.
  - intros p P L. apply (provides_iff H s a p N) in P. assert (I : In p (map snd ws)). { rewrite G. apply filter_In. split; [auto|]. destruct (gone (p_ipc p) s) eqn:X; [|auto]. apply (gone_lost H s) in X; [|auto]. destruct (L (same_lost _ X)). }
    apply in_map_iff in I as ([k q] & <- & I). eauto.
Qed.

Lemma answer_ok r have : arrived r H -> far r -> told H have -> (forall n, In n (r_want r) -> ~ In n (map fst have) -> (r_api r = false -> not_here r n H) /\ not_there r n H) -> fine h i H (answer have r).
Proof.
  intros A F T N. cbn. exists r. split; [auto|]. split; [auto|]. split; [auto|]. split; [auto|]. split; [|split].
  - intros n x I. apply select_in in I as [I _]. destruct (T n x I); auto.
  - intros _ n I. now apply select_names in I.
  - intros n I J. right. assert (X : ~ In n (map fst have)) by (intro X; apply J; now apply select_names). destruct (N n I X). auto.
Qed.
Lemma okreq_not_there have ws r : all_failed ws = true -> okreq H have ws r -> forall n, In n (r_want r) -> ~ In n (map fst have) -> (r_api r = false -> not_here r n H) /\ not_there r n H.
Proof.
  intros W (A & F & N) n I J. destruct (N n I J) as [X Y]. split; [auto|]. destruct Y as (h1 & i1 & ev1 & h2 & E & B & C). exists h1, i1, ev1, h2. split; [auto|]. split; [auto|]. intros p P L. destruct (C p P L) as (k & w & o & K1 & K2 & K3 & [[K4 _]|K4]); [|exists k, w, o; auto].
  exfalso. now apply (proj1 (all_failed_iff ws) W k p).
Qed.
Lemma finish_ok d : okd H d -> all_failed (d_wait d) = true -> Forall (fine h i H) (finish d).
Proof.
  intros (_ & _ & J) W. unfold finish, okjob in *. apply Forall_forall. intros e I. destruct (d_job d) as [l|p k].
  - destruct J as [T R]. apply in_map_iff in I as (r & <- & I). specialize (R r I). destruct (R) as (A & F & _). apply answer_ok; auto. apply (okreq_not_there _ (d_wait d)); auto.
  - destruct J as [T (h1 & i1 & ev1 & h2 & l & w & A & B & C & D)]. destruct I as [<-|[]]. cbn. split; [|auto]. exists h1, i1, ev1, h2, l, w. split; [auto|]. split; [auto|]. split; [auto|]. intros q P L. destruct (D q P L) as (k' & D1 & D2). exists k'. split; [auto|].
    intros n N. destruct (D2 n N) as [[X _]|X]; [|auto]. exfalso. now apply (proj1 (all_failed_iff _) W k' q).
Qed.
Lemma add_disc_ok d s : dyn H s -> env H s -> okd H d -> NoDup (map (fun x => fst (fst x)) (d_wait d)) -> (forall x, In x (d_wait d) -> fst (fst x) < s_next s /\ ~ In (fst (fst x)) (dkeys (s_disc s))) -> good (add_disc d s).
Proof.
  intros Y E O N F. unfold add_disc. destruct (all_failed (d_wait d)) eqn:W; (split; [|split]); cbn [fst snd]; auto; try (now apply finish_ok).
  - destruct Y. split; cbn [with_disc s_disc s_look s_known s_acc s_next]; auto.
    + intros d' I. apply in_snoc in I as [I| ->]; auto.
    + unfold dkeys. rewrite flat_map_app. cbn. rewrite app_nil_r. apply nodup_app; auto. intros x I J. apply in_map_iff in J as (y & <- & J). destruct (F y J). auto.
    + intros k [I|I]; [|auto]. unfold dkeys in I. rewrite flat_map_app, in_app_iff in I. cbn in I. rewrite app_nil_r in I. destruct I as [I|I]; [auto|]. apply in_map_iff in I as (y & <- & J). destruct (F y J). auto.
  - apply (env_fixed H s); auto.
Qed.
Lemma map_false_in (ws : list (Z * proc)) k p : In (k, p, false) (map (fun x => (x, false)) ws) <-> In (k, p) ws.
Proof. rewrite in_map_iff. split; [intros (x & E & I); injection E as ->; auto|]. intro I. exists (k, p). auto. Qed.
Lemma fresh_keys (ws : list (Z * proc)) s n : dyn H s -> (forall x, In x ws -> s_next s <= fst x < n) ->
  forall x, In x (map (fun x => (x, false)) ws) -> fst (fst x) < n /\ ~ In (fst (fst x)) (dkeys (s_disc s)).
Proof. intros Y F x I. apply in_map_iff in I as (y & <- & I). cbn. specialize (F y I). split; [lia|]. intro J. assert (fst y < s_next s) by (apply (y_fresh _ _ Y); auto). lia. Qed.
Lemma good_app s1 ev1 s2 ev2 : Forall (fine h i H) ev1 -> good (s2, ev2) -> good (s2, ev1 ++ ev2) /\ s1 = s1 :> state.
Proof. intros A (B & C & D). split; [|auto]. split; [auto|]. split; [auto|]. cbn. apply Forall_app. auto. Qed.

Lemma unions_in n (reqs : list req) : forall a, In n (fold_left (fun a r => union a (r_want r)) reqs a) <-> In n a \/ exists r, In r reqs /\ In n (r_want r).
Proof.
  induction reqs as [|r l IH]; intro a; cbn [fold_left]; [split; [auto|intros [A|(r & [] & _)]; auto]|]. rewrite IH, union_in. split.
  - intros [[A|A]|(r' & I & A)]; [auto|right; exists r; cbn; auto|right; exists r'; cbn; auto].
  - intros [A|(r' & [->|I] & A)]; [auto|auto|right; eauto].
Qed.
(* the aggregated discovery *)
Lemma aggregate_ok reqs have s : dyn H s -> env H s -> shown (snd (aggregate reqs have s)) -> told H have ->
  (forall r, In r reqs -> arrived r H /\ far r /\ forall n, In n (r_want r) -> ~ In n (map fst have) -> r_api r = false -> not_here r n H) -> good (aggregate reqs have s).
Proof.
  intros Y E V T R. unfold aggregate in *. destruct reqs as [|r0 l0]; [split; [auto|split; [auto|constructor]]|]. set (reqs := r0 :: l0) in *. set (w := normal _ _) in *.
  assert (W : forall o, In o w <-> exists n r, In r reqs /\ In n (r_want r) /\ ~ In n (map fst have) /\ o = to_origin (configured h) n).
  { intro o. unfold w. rewrite normal_in, (e_config _ _ E), same_config. split.
    - intros (n & I & ->). apply minus_in in I as [I J]. apply unions_in in I as [[]|(r & I & K)]. exists n, r. auto.
    - intros (n & r & I & K & J & ->). exists n. split; [|auto]. apply minus_in. split; [|auto]. apply unions_in. right. eauto. }
  assert (Was : forall o, In o w -> wanted_as o H).
  { intros o I. apply W in I as (n & r & I & K & J & ->). destruct (R r I) as (A & F & _). exists r, n, h, [(i, ev)]. split; [auto|]. split; [auto|]. split; [auto|]. split; [auto|]. apply to_origin_official. }
  set (X := match w with [] => _ | _ => _ end) in *.
  assert (Q : exists s1 ev1 ws, X = (s1, ev1, ws) /\ env H s1 /\ dyn H s1 /\ s_disc s1 = s_disc s /\ NoDup (map fst ws) /\ (forall x, In x ws -> s_next s <= fst x < s_next s1) /\ (forall k p, In (k, p) ws -> In (Ask p k w) ev1) /\
     Forall (fine h i H) ev1 /\ (w <> [] -> forall p, provides ADiscover p H -> ~ lost (p_ipc p) h -> exists k, In (k, p) ws)).
  { unfold X. destruct w as [|o w'] eqn:Ew.
    - exists s, [], []. split; [auto|]. split; [auto|]. split; [auto|]. split; [auto|]. split; [constructor|]. split; [intros x []|]. split; [intros k p []|]. split; [constructor|]. intros []; auto.
    - destruct (ask _ _ s) as [[s1 ev1] ws] eqn:A. exists s1, ev1, ws. destruct (ask_ok _ _ _ _ _ _ A E Y) as (A1 & A2 & A3 & A4 & A5 & A6 & A7 & A8 & A9). split; [auto|]. split; [auto|]. split; [auto|]. split; [rewrite A1; auto|]. split; [auto|]. split; [auto|]. split; [intros k p I; now apply A8|]. split; [|auto].
      apply Forall_forall. intros e I. rewrite A5 in I. apply in_map_iff in I as ([k p] & <- & I). cbn [fst snd fine]. destruct (A8 k p I) as (B1 & B2 & B3). split; [auto|]. split; [auto|]. intros o' I'. left. now apply Was. }
  destruct Q as (s1 & ev1 & ws & EX & Q1 & Q2 & Q3 & Q4 & Q5 & Q6 & Q7 & Q8). rewrite EX in *. clear X EX. set (d := Disc _ have w _) in *. destruct (add_disc d s1) as [s2 ev2] eqn:D. cbn [fst snd] in *. apply shown_app in V as [V1 V2].
  assert (O : forall k p, In (k, p) ws -> open (Ask p k w) H). { intros k p I. apply (shown_open ev1); auto. discriminate. }
  assert (G : good (add_disc d s1)).
  { apply add_disc_ok; auto.
    - split; [intros k p I; apply map_false_in in I; eauto|]. split; [exact Was|]. unfold okjob. cbn [d_job d d_have d_wait]. split; [auto|]. intros r I. destruct (R r I) as (A & F & N). split; [auto|]. split; [auto|]. intros n I1 I2. split; [now apply N|].
      exists h, i, ev, []. split; [auto|]. split; [auto|]. intros p P L. assert (Iw : In (to_origin (configured h) n) w) by (apply W; exists n, r; auto). assert (NE : w <> []) by (intro Z; rewrite Z in Iw; destruct Iw). destruct (Q8 NE p P L) as (k & K). exists k, w, (to_origin (configured h) n).
      split; [apply V1; [auto|discriminate]|]. split; [apply to_origin_official|]. split; [auto|]. left. split; [now apply map_false_in|auto].
    - cbn [d d_wait]. rewrite map_map. cbn. exact Q4.
    - cbn [d d_wait]. intros x I. apply in_map_iff in I as (y & <- & I). cbn. specialize (Q5 y I). split; [lia|]. rewrite Q3. intro J. assert (fst y < s_next s) by (apply (y_fresh _ _ Y); auto). lia. }
  rewrite D in G. destruct G as (G1 & G2 & G3). split; [auto|]. split; [auto|]. cbn. apply Forall_app. auto.
Qed.

Lemma accumulate_ok a s : dyn H s -> env H s -> okacc H a -> good (accumulate a s).
Proof. intros [] E A. split; [split; auto|]. split; [apply (env_fixed H s); auto|]. cbn. destruct (s_timer s); repeat constructor. Qed.
(* the lookups *)
Lemma lpt_not_here r have n : lpt H r [] have -> ~ In n (map fst have) -> not_here r n H.
Proof. intros (h1 & ev1 & h2 & E & A) N. exists h1, ev1, h2. split; [auto|]. intros p P L. destruct (A p P L) as (k & I & B). exists k. split; [auto|]. destruct (B n N) as [[]|]; auto. Qed.
Lemma lpt_arrived r ws have : lpt H r ws have -> arrived r H.
Proof. intros (h1 & ev1 & h2 & E & A). right. rewrite E, inputs_app. apply in_app_iff. right. cbn. auto. Qed.
Lemma look_done_ok l s : dyn H s -> env H s -> shown (snd (look_done l s)) -> okl H l -> l_wait l = [] -> good (look_done l s).
Proof.
  intros Y E V (O & A & P & T) W. rewrite W in P. unfold look_done in *. pose proof (lpt_arrived _ _ _ P) as R. destruct (r_extend (l_req l)) eqn:X; cbn [negb] in *.
  - destruct (includes (r_want (l_req l)) (l_have l)) eqn:I.
    + split; [auto|]. split; [auto|]. constructor; [|constructor]. apply answer_ok; auto; [right; auto|intros n x J; left; now apply T|]. intros n J N. rewrite includes_iff in I. destruct (N (I n J)).
    + destruct (accumulating s).
      * apply accumulate_ok; auto. destruct (y_acc _ _ Y) as (A1 & A2 & A3 & A4). split; [auto|]. cbn [acc_req a_disc a_have a_direct a_implicit]. split; [|split; [|auto]].
        -- intros r I'. apply in_snoc in I' as [I'| ->].
           ++ destruct (A2 r I') as (B1 & B2 & B3 & B4). split; [auto|]. split; [auto|]. split; [auto|]. intros n N. apply B4. intro J. apply N. apply plus_names. auto.
           ++ split; [auto|]. split; [auto|]. split; [auto|]. intros n N. apply (lpt_not_here _ (l_have l)); auto. intro J. apply N. apply plus_names. auto.
        -- intros n x I'. apply plus_in in I' as [I'|I']; auto.
      * apply aggregate_ok; auto; [intros n x J; left; now apply T|]. intros r [<-|[]]. split; [auto|]. split; [right; auto|]. intros n _ N _. now apply (lpt_not_here _ (l_have l)).
  - split; [auto|]. split; [auto|]. constructor; [|constructor]. cbn. exists (l_req l). split; [auto|]. split; [auto|]. split; [auto|]. split; [auto|]. split; [intros n x J; left; now apply T|]. assert (F : ~ far (l_req l)) by (intros [F|F]; congruence).
    split; [tauto|]. intros n _ N. right. split; [|tauto]. intros _. now apply (lpt_not_here _ (l_have l)).
Qed.
Lemma lkeys_snoc l x : lkeys (l ++ [x]) = lkeys l ++ map fst (l_wait x).
Proof. unfold lkeys. rewrite flat_map_app. cbn. now rewrite app_nil_r. Qed.
Lemma kkeys_snoc l x : kkeys (l ++ [x]) = kkeys l ++ map fst (k_wait x).
Proof. unfold kkeys. rewrite flat_map_app. cbn. now rewrite app_nil_r. Qed.
Lemma add_look_ok l s : dyn H s -> env H s -> okl H l -> l_wait l <> [] -> NoDup (map fst (l_wait l)) -> (forall x, In x (l_wait l) -> fst x < s_next s /\ ~ In (fst x) (lkeys (s_look s))) -> good (with_look (s_look s ++ [l]) s, []).
Proof.
  intros [] E O W N F. split; [|split; [|constructor]]; cbn [fst]; [|apply (env_fixed H s); auto]. split; cbn [with_look s_disc s_look s_known s_acc s_next]; auto.
  - intros d I. apply in_snoc in I as [I| ->]; auto.
  - rewrite lkeys_snoc. apply nodup_app; auto. intros x I J. apply in_map_iff in J as (y & <- & J). destruct (F y J). auto.
  - intros k I. rewrite lkeys_snoc, in_app_iff in I. destruct I as [I|[[I|I]|I]]; auto. apply in_map_iff in I as (y & <- & J). destruct (F y J). auto.
Qed.
Lemma lookup_ok r s : i = Request r -> r_api r = false -> dyn H s -> env H s -> shown (snd (lookup r s)) -> good (lookup r s).
Proof.
  intros I R Y E V. unfold lookup in *. destruct (ask _ _ s) as [[s1 ev1] ws] eqn:A. destruct (ask_ok _ _ _ _ _ _ A E Y) as (A1 & A2 & A3 & A4 & A5 & A6 & A7 & A8 & A9).
  assert (F : Forall (fine h i H) ev1). { apply Forall_forall. intros e J. rewrite A5 in J. apply in_map_iff in J as ([k p] & <- & J). cbn [fst snd fine]. destruct (A8 k p J) as (B1 & B2 & B3). split; [auto|]. split; [auto|]. exists r. auto. }
  assert (L : shown ev1 -> okl H (Look ws [] r)).
  { intro S. split; [intros k p J; cbn; apply (shown_open ev1); [auto|now apply A8|discriminate]|]. split; [auto|]. split; [|intros n x []]. cbn [l_req l_wait l_have]. exists h, ev, []. split; [unfold H; now rewrite I|]. rewrite <- I. intros p P Q. destruct (A9 p P Q) as (k & K). exists k. split; [apply S; [now apply A8|discriminate]|]. intros n _. auto. }
  destruct ws as [|w ws].
  - destruct (look_done (Look [] [] r) s1) as [s2 ev2] eqn:D. cbn [fst snd] in V. apply shown_app in V as [V1 V2]. assert (G : good (look_done (Look [] [] r) s1)) by (apply look_done_ok; auto; rewrite D; auto). rewrite D in G. destruct G as (G1 & G2 & G3). split; [auto|]. split; [auto|]. cbn. apply Forall_app. auto.
  - cbn [fst snd] in V. rewrite app_nil_r in *. assert (G : good (with_look (s_look s1 ++ [Look (w :: ws) [] r]) s1, [])).
    { apply add_look_ok; auto; [discriminate|]. cbn [l_wait]. intros x J. specialize (A7 x J). split; [lia|]. intro K. assert (fst x < s_next s) by (apply (y_fresh _ _ Y); rewrite A1 in K; auto). lia. }
    destruct G as (G1 & G2 & G3). split; [auto|]. split; [auto|auto].
Qed.
(* what is known *)
Lemma kpt_fetched i0 have : kpt H i0 [] have -> fetched i0 have H.
Proof. intros (h1 & ev1 & h2 & E & A). exists h1, ev1, h2. split; [auto|]. intros p P L. destruct (A p P L) as (k & I & B). exists k. split; [auto|]. intros n N. destruct (B n N) as [[]|]; auto. Qed.
Lemma pending_in o s : In o (pending s) <-> exists d, In d (s_disc s) /\ In o (d_asked d).
Proof.
  unfold pending. assert (G : forall l a, In o (fold_left (fun a d => union a (d_asked d)) l a) <-> In o a \/ exists d, In d l /\ In o (d_asked d)).
  { induction l as [|d l IH]; intro a; cbn [fold_left]; [split; [auto|intros [A|(d & [] & _)]; auto]|]. rewrite IH, union_in. split.
    - intros [[A|A]|(r' & I & A)]; [auto|right; exists d; cbn; auto|right; exists r'; cbn; auto].
    - intros [A|(r' & [->|I] & A)]; [auto|auto|right; eauto]. }
  rewrite G. cbn. tauto.
Qed.
Lemma directs_in o (direct : list (Z * wanted)) : forall a, In o (fold_left (fun a d => union a (snd d)) direct a) <-> In o a \/ exists p w, In (p, w) direct /\ In o w.
Proof.
  induction direct as [|[p w] l IH]; intro a; cbn [fold_left]; [split; [auto|intros [A|(p & w & [] & _)]; auto]|]. rewrite IH, union_in. cbn [snd]. split.
  - intros [[A|A]|(p' & w' & I & A)]; [auto|right; exists p, w; cbn; auto|right; exists p', w'; cbn; auto].
  - intros [A|(p' & w' & [E|I] & A)]; [auto|injection E as -> ->; auto|right; eauto].
Qed.
Lemma append_in d b : forall a, In d (append_domains a b) <-> In d a \/ In d b.
Proof.
  induction b as [|x b IH]; intro a; [cbn; tauto|]. change (append_domains a (x :: b)) with (append_domains (if existsb (Z.eqb x) a then a else a ++ [x]) b). rewrite IH. cbn [In]. destruct (existsb (Z.eqb x) a) eqn:M; [apply existsb_eqb in M|].
  - split; [tauto|]. intros [K|[->|K]]; auto.
  - rewrite in_snoc. intuition.
Qed.
Lemma implicits_in d (l : list (Z * list Z)) : forall a, In d (fold_left (fun a x => append_domains a (snd x)) l a) <-> In d a \/ exists p ds, In (p, ds) l /\ In d ds.
Proof.
  induction l as [|[p w] l IH]; intro a; cbn [fold_left]; [split; [auto|intros [A|(p & w & [] & _)]; auto]|]. rewrite IH, append_in. cbn [snd]. split.
  - intros [[A|A]|(p' & w' & I & A)]; [auto|right; exists p, w; cbn; auto|right; exists p', w'; cbn; auto].
  - intros [A|(p' & w' & [E|I] & A)]; [auto|injection E as -> ->; auto|right; eauto].
Qed.
Lemma known_done_ok x s : dyn H s -> env H s -> shown (snd (known_done x s)) -> okk H x -> k_wait x = [] -> good (known_done x s).
Proof.
  intros Y E V (O & T & G) W. unfold known_done, okgoal in *. rewrite W in G. destruct (k_goal x) as [p k|direct implicit].
  - set (w := union _ _) in *. destruct (ask _ _ s) as [[s1 ev1] ws] eqn:A. destruct (ask_ok _ _ _ _ _ _ A E Y) as (A1 & A2 & A3 & A4 & A5 & A6 & A7 & A8 & A9).
    assert (Was : forall o, In o w -> wanted_as o H \/ known_as o H).
    { intros o I. apply union_in in I as [I|I].
      - right. apply normal_in in I as (n & I & ->). destruct (T n I) as (k' & w' & I1 & I2). exists k', w', n, h, [(i, ev)]. split; [auto|]. split; [auto|]. split; [auto|]. rewrite (e_config _ _ E), same_config. apply to_origin_official.
      - left. apply pending_in in I as (d & I & J). destruct (y_disc _ _ Y d I) as (_ & _ & B & _). auto. }
    assert (F : Forall (fine h i H) ev1). { apply Forall_forall. intros e J. rewrite A5 in J. apply in_map_iff in J as ([k' q] & <- & J). cbn [fst snd fine]. destruct (A8 k' q J) as (B1 & B2 & B3). auto. }
    set (d := Disc _ [] [] _) in *. destruct (add_disc d s1) as [s2 ev2] eqn:D. cbn [fst snd] in V. apply shown_app in V as [V1 V2].
    assert (Gd : good (add_disc d s1)).
    { apply add_disc_ok; auto.
      - split; [intros k' q I; apply map_false_in in I; exists w; apply (shown_open ev1); [auto|now apply A8|discriminate]|]. split; [intros o []|]. unfold okjob. cbn [d d_job d_have d_wait]. split; [intros n y []|]. exists h, i, ev, [], (k_have x), w. split; [auto|]. split; [now apply kpt_fetched|]. split.
        + intros n I. exists (to_origin (configured h) n). split; [apply to_origin_official|]. apply union_in. left. apply normal_in. exists n. split; [auto|]. now rewrite (e_config _ _ E), same_config.
        + intros q P L. destruct (A9 q P L) as (k' & K). exists k'. destruct (A8 k' q K) as (B1 & _). split; [apply V1; [auto|discriminate]|]. intros n _. left. split; [now apply map_false_in|]. apply (shown_open ev1); [auto|auto|discriminate].
      - cbn [d d_wait]. rewrite map_map. cbn. exact A6.
      - cbn [d d_wait]. intros y I. apply in_map_iff in I as (z & <- & I). cbn. specialize (A7 z I). split; [lia|]. rewrite A1. cbn. intro J. assert (fst z < s_next s) by (apply (y_fresh _ _ Y); auto). lia. }
    rewrite D in Gd. destruct Gd as (G1 & G2 & G3). split; [auto|]. split; [auto|]. cbn. apply Forall_app. auto.
  - destruct G as [[U1 U2] K]. apply kpt_fetched in K. cbv zeta. split; [auto|]. split; [auto|]. cbn [snd]. apply Forall_app. split.
    + set (w := union _ _). destruct w as [|o0 w0] eqn:Ew; [constructor|]. rewrite <- Ew in *. apply Forall_forall. intros e I. apply in_flat_map in I as (p & _ & I). unfold send in I. destruct (gone p s) eqn:X; [destruct I|]. destruct I as [<-|[]]. cbn [fine]. split; [intro L; apply (gone_lost H s) in L; [congruence|auto]|]. split.
      * intros o I. unfold w in I. apply union_in in I as [I|I].
        -- apply normal_in in I as (n & I & ->). rewrite (e_config _ _ E), same_config. apply directs_in in I as [I|(q & w' & I1 & I2)].
           ++ right. left. destruct (T n I) as (k' & w' & I1 & I2). exists k', w', n, h, [(i, ev)]. split; [auto|]. split; [auto|]. split; [auto|]. apply to_origin_official.
           ++ right. right. exists q, w', n, h, [(i, ev)]. split; [auto|]. split; [auto|]. split; [auto|]. apply to_origin_official.
        -- left. apply pending_in in I as (d & I & J). destruct (y_disc _ _ Y d I) as (_ & _ & B & _). auto.
      * exists (k_have x). split; [auto|]. intros n I. exists (to_origin (configured h) n). split; [apply to_origin_official|]. apply union_in. left. apply normal_in. exists n. split; [apply directs_in; auto|]. now rewrite (e_config _ _ E), same_config.
    + apply Forall_forall. intros e I. apply in_flat_map in I as (q & P & I). unfold send in I. destruct (gone (p_ipc q) s) eqn:X; [destruct I|]. destruct I as [<-|[]]. cbn [fine]. split; [exists q; split; [auto|now apply (provides_iff H s)]|]. split; [intro L; apply (gone_lost H s) in L; [congruence|auto]|].
      rewrite <- (e_self _ _ E). split; [apply append_in; cbn; auto|]. intros d I. apply append_in in I as [I|[I|[]]]; [|auto]. right. apply implicits_in in I as [[]|(p' & ds & I1 & I2)]. eauto.
Qed.
Definition cause (g : goal) : input := match g with GRedisc p k => Rediscover p k | GExplore _ _ => Timeout end.
Lemma fetch_ok g s : i = cause g -> (match g with GExplore d im => updates H d im | _ => True end) -> dyn H s -> env H s -> shown (snd (fetch g s)) -> good (fetch g s).
Proof.
  intros I U Y E V. unfold fetch in *. destruct (ask _ _ s) as [[s1 ev1] ws] eqn:A. destruct (ask_ok _ _ _ _ _ _ A E Y) as (A1 & A2 & A3 & A4 & A5 & A6 & A7 & A8 & A9).
  assert (F : Forall (fine h i H) ev1). { apply Forall_forall. intros e J. rewrite A5 in J. apply in_map_iff in J as ([k p] & <- & J). cbn [fst snd fine]. destruct (A8 k p J) as (B1 & B2 & B3). split; [auto|]. split; [auto|]. destruct g; cbn in I; eauto. }
  assert (L : shown ev1 -> okk H (Known ws [] g)).
  { intro S. split; [intros k p J; cbn; apply (shown_open ev1); [auto|now apply A8|discriminate]|]. split; [intros n []|]. unfold okgoal. cbn [k_goal k_wait k_have].
    assert (K : kpt H (cause g) ws []). { exists h, ev, []. split; [unfold H; now rewrite <- I|]. rewrite <- I. intros p P Q. destruct (A9 p P Q) as (k & K). exists k. split; [apply S; [now apply A8|discriminate]|]. intros n _. auto. }
    destruct g; auto. }
  destruct ws as [|w ws].
  - destruct (known_done (Known [] [] g) s1) as [s2 ev2] eqn:D. cbn [fst snd] in V. apply shown_app in V as [V1 V2]. assert (G : good (known_done (Known [] [] g) s1)) by (apply known_done_ok; auto; rewrite D; auto). rewrite D in G. destruct G as (G1 & G2 & G3). split; [auto|]. split; [auto|]. cbn. apply Forall_app. auto.
  - cbn [fst snd] in V. rewrite app_nil_r in *. split; [|split; [|auto]]; cbn [fst]; [|apply (env_fixed H s1); auto]. pose proof (y_fresh _ _ Y) as Fr. destruct A3. split; cbn [with_known s_disc s_look s_known s_acc s_next]; auto.
    + intros d J. apply in_snoc in J as [J| ->]; [auto|]. split; [discriminate|auto].
    + rewrite kkeys_snoc. apply nodup_app; auto. intros x J K. apply in_map_iff in K as (y & <- & K). specialize (A7 y K). assert (fst y < s_next s) by (apply Fr; rewrite A1 in J; auto). lia.
    + intros k J. rewrite kkeys_snoc, in_app_iff in J. destruct J as [J|[J|[J|J]]]; auto. apply in_map_iff in J as (y & <- & J). specialize (A7 y J). lia.
Qed.
Lemma each_ok {A} (g : A -> state -> state * list effect) l : (forall x s, In x l -> dyn H s -> env H s -> shown (snd (g x s)) -> good (g x s)) -> forall s, dyn H s -> env H s -> shown (snd (each g l s)) -> good (each g l s).
Proof.
  induction l as [|x l IH]; intros G s Y E V; cbn [each] in *; [split; [auto|split; [auto|constructor]]|]. pose proof (G x s (or_introl eq_refl) Y E) as Gx. destruct (g x s) as [s1 e1]. cbn [fst snd] in *.
  destruct (each g l s1) as [s2 e2] eqn:Ee. cbn [fst snd] in *. apply shown_app in V as [V1 V2]. destruct (Gx V1) as (G1 & G2 & G3). assert (Gl : good (each g l s1)). { apply IH; auto. - intros y s' I. apply G. cbn. auto. - now rewrite Ee. }
  rewrite Ee in Gl. destruct Gl as (L1 & L2 & L3). split; [auto|]. split; [auto|]. cbn in *. apply Forall_app. auto.
Qed.
End Ops.
