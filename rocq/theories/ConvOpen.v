(* What the process has been told about its descriptors is what they are *)
From Coq Require Import ZArith List Bool Lia.
From Verif Require Import ConvModel ConvSpec ConvProofs ConvInv ConvShape ConvMove ConvKeep ConvKept ConvAll ConvAct.
Import ListNotations.
Local Open Scope Z_scope.

Record POk (x : Z) (s : proc) (h : list entry) : Prop := mk_pok {
  p_has : forall n v, at_ n (p_descs s) = Some v -> (exists c, p_conn s = Some (n, c)) \/ (In (Z.of_nat n, v_corr v) (opened x h) /\ control x (v_corr v) h = gives (v_dup v));
  p_is : forall d c, In (d, c) (opened x h) -> exists n v, d = Z.of_nat n /\ at_ n (p_descs s) = Some v /\ v_corr v = c /\ (forall c', p_conn s <> Some (n, c'));
  p_nd : NoDup (map fst (opened x h)) }.
Lemma in_closed d (o : list (Z * corr)) d' c' : In (d', c') (filter (fun y => negb (fst y =? d)) o) <-> In (d', c') o /\ d' <> d.
Proof. rewrite filter_In. cbn [fst]. rewrite negb_true_iff, Z.eqb_neq. reflexivity. Qed.
Lemma nd_filter (f : Z * corr -> bool) o : NoDup (map fst o) -> NoDup (map fst (filter f o)).
Proof.
  induction o as [|y o IH]; cbn [map filter]; [auto|]. intros N. inversion N; subst. destruct (f y); [|auto]. cbn [map]. constructor; [|auto]. intros B. apply H1. apply in_map_iff in B. destruct B as (z & E & B). apply filter_In in B. apply in_map_iff. exists z. tauto.
Qed.
(* a descriptor is closed *)
Lemma pok_close x i o s s' ev h n v : uniq (p_descs s) -> p_conn s = None -> p_conn s' = None -> POk x s h -> at_ n (p_descs s) = Some v -> p_descs s' = set_at n None (p_descs s) ->
  (ev = [Closed (v_corr v) (Z.of_nat n)] \/ exists g y t, ev = [Got (v_corr v) g y t; Closed (v_corr v) (Z.of_nat n)]) -> POk x s' (h ++ [(x, i, o, ev)]).
Proof.
  intros U PC PC' [P1 P2 P3] A ED EV.
  assert (EO : opened x (h ++ [(x, i, o, ev)]) = filter (fun y => negb (fst y =? Z.of_nat n)) (opened x h)) by (rewrite opened_step, Z.eqb_refl; destruct EV as [->|(g & y & t & ->)]; reflexivity).
  assert (EC : forall c, c <> v_corr v -> control x c (h ++ [(x, i, o, ev)]) = control x c h). { intros c N. rewrite control_step, Z.eqb_refl. destruct EV as [->|(g & y & t & ->)]; cbn [fold_left control_after]; [reflexivity|]. rewrite (proj2 (corr_eqb_neq _ _)) by auto. reflexivity. }
  constructor.
  - intros k u. rewrite ED, at_set_none. destruct (k =? n)%nat eqn:K; [discriminate|]. apply Nat.eqb_neq in K. intros B. right. destruct (P1 k u B) as [(c & E)|[B1 B2]]; [congruence|]. rewrite EO, in_closed. split; [split; [exact B1|lia]|]. rewrite EC; [exact B2|]. intros C. apply K. exact (U _ _ _ _ B A C).
  - intros d c. rewrite EO, in_closed. intros [B N]. destruct (P2 d c B) as (k & u & -> & B1 & B2 & _). exists k, u. split; [reflexivity|]. rewrite ED, at_set_none. assert (K : k <> n) by congruence. rewrite (proj2 (Nat.eqb_neq _ _) K). split; [exact B1|]. split; [exact B2|]. intros c'. rewrite PC'. discriminate.
  - rewrite EO. apply nd_filter. exact P3.
Qed.
(* nothing is opened or closed, and only the control of one is passed *)
Lemma pok_same x i o s s' ev h : uniq (p_descs s) -> p_conn s' = p_conn s -> POk x s h -> opened x (h ++ [(x, i, o, ev)]) = opened x h -> p_descs s' = p_descs s -> (forall c, control x c (h ++ [(x, i, o, ev)]) = control x c h) -> POk x s' (h ++ [(x, i, o, ev)]).
Proof.
  intros U PC [P1 P2 P3] EO ED EC. constructor; [|intros d c; rewrite EO, ED, PC; apply P2|rewrite EO; exact P3]. intros n v. rewrite ED, EO, PC, EC. apply P1.
Qed.
Lemma pok_turn x i o s s' ev h n v d : uniq (p_descs s) -> p_conn s = None -> p_conn s' = None -> POk x s h -> at_ n (p_descs s) = Some v -> p_descs s' = set_at n (Some (v_with d v)) (p_descs s) ->
  opened x (h ++ [(x, i, o, ev)]) = opened x h -> control x (v_corr v) (h ++ [(x, i, o, ev)]) = gives d -> (forall c, c <> v_corr v -> control x c (h ++ [(x, i, o, ev)]) = control x c h) -> POk x s' (h ++ [(x, i, o, ev)]).
Proof.
  intros U PC PC' [P1 P2 P3] A ED EO EC EN. constructor.
  - intros k u. rewrite ED, (at_set_some n k _ v _ A), EO. destruct (k =? n)%nat eqn:K.
    + apply Nat.eqb_eq in K. subst k. intros [= <-]. right. cbn [v_with v_corr v_dup]. destruct (P1 n v A) as [(c & E)|[B1 _]]; [congruence|]. auto.
    + apply Nat.eqb_neq in K. intros B. right. destruct (P1 k u B) as [(c & E)|[B1 B2]]; [congruence|]. split; [exact B1|]. rewrite EN; [exact B2|]. intros C. apply K. exact (U _ _ _ _ B A C).
  - intros e c. rewrite EO. intros B. destruct (P2 e c B) as (k & u & -> & B1 & B2 & _). assert (NC : forall c', p_conn s' <> Some (k, c')) by (intros c'; rewrite PC'; discriminate). destruct (Nat.eq_dec k n) as [->|K].
    + exists n, (v_with d v). split; [reflexivity|]. rewrite ED, (at_set _ _ _ _ A). split; [reflexivity|]. split; [|exact NC]. cbn. congruence.
    + exists k, u. split; [reflexivity|]. rewrite ED, (at_set_other _ _ _ _ K). auto.
  - rewrite EO. exact P3.
Qed.

Lemma pok_move x i o s s' ms ev h : uniq (p_descs s) -> conn_ok s -> POk x s h -> move x i o s s' ms ev -> (forall c t, In (Called c t) ev -> val c (p_descs s) = None) -> (forall c d b, p_conn s = None -> In (Opened c d b) ev -> val c (p_descs s) = None) -> POk x s' (h ++ [(x, i, o, ev)]).
Proof.
  intros U IC P M NC NI.
  destruct M as [| |t d data ds n PC CT CE R|n c a b g PC EI G|n c PC|n v PC A|n v PC A VI EI EO|n v a m b PC A EI MC MB|n v d data PC A DV NM|n v a d data b told PC A DV EI NA|n v a d data b PC A DV EI|c f d data r ds n PC PS EP EI R|m r PC PS EP EI RQ|n c f ou user data ms PS A MS].
  - apply (pok_same x i o s); auto; [rewrite opened_step, Z.eqb_refl; reflexivity|intros c; rewrite control_step, Z.eqb_refl; reflexivity].
  - apply (pok_same x i o s); auto; [rewrite opened_step, Z.eqb_refl; reflexivity|intros c; rewrite control_step, Z.eqb_refl; reflexivity].
  - set (c := (x, p_next s)) in *. pose proof (NC c t (or_introl eq_refl)) as VN. destruct (reserve_spec _ _ _ _ R) as [AN B]. destruct P as [P1 P2 P3].
    assert (EO : opened x (h ++ [(x, i, o, [Called c t; Sent c (gives (invert d)) data])]) = opened x h) by (rewrite opened_step, Z.eqb_refl; reflexivity).
    constructor; [| |rewrite EO; exact P3].
    + intros k u. cbn [p_descs w_conn w_descs p_conn]. rewrite B. destruct (k =? n)%nat eqn:K; [apply Nat.eqb_eq in K; subst k; intros _; left; exists c; reflexivity|]. intros A. right. rewrite EO. destruct (P1 k u A) as [(c' & E)|[B1 B2]]; [congruence|]. split; [exact B1|]. rewrite control_step, Z.eqb_refl. cbn [fold_left control_after]. rewrite (proj2 (corr_eqb_neq c (v_corr u))) by (intros E; exact (val_none _ _ VN k u A (eq_sym E))). exact B2.
    + intros e c'. rewrite EO. intros Q. destruct (P2 e c' Q) as (k & u & -> & A & C & _). exists k, u. split; [reflexivity|]. assert (K : k <> n) by (intros ->; congruence). cbn [p_descs w_conn w_descs p_conn]. rewrite B, (proj2 (Nat.eqb_neq _ _) K). split; [exact A|]. split; [exact C|]. intros c0 [= E _]. congruence.
  - destruct (IC n c PC) as (v & A & VC & VI). destruct P as [P1 P2 P3]. pose proof (G v A) as GV. subst g.
    assert (EO : opened x (h ++ [(x, i, o, [Opened c (Z.of_nat n) (gives (v_dup v))])]) = (Z.of_nat n, c) :: opened x h) by (rewrite opened_step, Z.eqb_refl; reflexivity).
    assert (EC : forall c', control x c' (h ++ [(x, i, o, [Opened c (Z.of_nat n) (gives (v_dup v))])]) = if corr_eqb c c' then gives (v_dup v) else control x c' h) by (intros c'; rewrite control_step, Z.eqb_refl; reflexivity).
    constructor; cbn [p_descs w_conn w_inbox p_conn].
    + intros k u B. right. rewrite EO, EC. destruct (Nat.eq_dec k n) as [->|K].
      * rewrite A in B. injection B as <-. rewrite VC, corr_eqb_refl. split; [left; reflexivity|reflexivity].
      * destruct (P1 k u B) as [(c' & E)|[B1 B2]]; [congruence|]. split; [right; exact B1|]. rewrite (proj2 (corr_eqb_neq c (v_corr u))); [exact B2|]. intros E. apply K. apply (U k n u v B A). congruence.
    + intros e c'. rewrite EO. intros [[= <- <-]|Q]; [exists n, v; repeat split; auto; discriminate|]. destruct (P2 e c' Q) as (k & u & -> & B & C & _). exists k, u. repeat split; auto. discriminate.
    + rewrite EO. cbn [map fst]. constructor; [|exact P3]. intros B. apply in_map_iff in B. destruct B as ([e c'] & E & B). cbn in E. subst e. destruct (P2 _ _ B) as (k & u & E & _ & _ & N). apply Nat2Z.inj in E. subst k. exact (N c PC).
  - destruct (IC n c PC) as (v & A & VC & VI). destruct P as [P1 P2 P3].
    assert (EO : opened x (h ++ [(x, i, o, [])]) = opened x h) by (rewrite opened_step, Z.eqb_refl; reflexivity).
    constructor; cbn [p_descs w_conn w_descs p_conn]; [| |rewrite EO; exact P3].
    + intros k u. rewrite at_set_none. destruct (k =? n)%nat eqn:K; [discriminate|]. apply Nat.eqb_neq in K. intros B. right. rewrite EO. destruct (P1 k u B) as [(c' & E)|[B1 B2]]; [congruence|]. split; [exact B1|]. rewrite control_step, Z.eqb_refl. exact B2.
    + intros e c'. rewrite EO. intros Q. destruct (P2 e c' Q) as (k & u & -> & B & C & N). exists k, u. assert (K : k <> n) by (intros ->; exact (N c PC)). rewrite at_set_none, (proj2 (Nat.eqb_neq _ _) K). repeat split; auto. discriminate.
  - apply (pok_close x i o s _ _ h n v U PC); [exact PC|exact P|exact A|reflexivity|]. left. reflexivity.
  - apply (pok_close x i o s _ _ h n v U PC); [exact PC|exact P|exact A|reflexivity|]. left. reflexivity.
  - apply (pok_close x i o s _ _ h n v U PC); [exact PC|exact P|exact A|reflexivity|]. left. reflexivity.
  - apply (pok_turn x i o s _ _ h n v d U PC); [exact PC|exact P|exact A|reflexivity|rewrite opened_step, Z.eqb_refl; reflexivity| |].
    + rewrite control_step, Z.eqb_refl. cbn [fold_left control_after]. rewrite corr_eqb_refl. destruct (p_has _ _ _ P n v A) as [(c & E)|[_ B2]]; [congruence|]. rewrite B2, DV. destruct d; reflexivity.
    + intros c N. rewrite control_step, Z.eqb_refl. cbn [fold_left control_after]. rewrite (proj2 (corr_eqb_neq _ _)) by auto. reflexivity.
  - apply (pok_turn x i o s _ _ h n v d U PC); [exact PC|exact P|exact A|reflexivity|rewrite opened_step, Z.eqb_refl; reflexivity| |].
    + rewrite control_step, Z.eqb_refl. cbn [fold_left control_after]. rewrite corr_eqb_refl. destruct (p_has _ _ _ P n v A) as [(c & E)|[_ B2]]; [congruence|]. rewrite B2, DV. destruct d; reflexivity.
    + intros c N. rewrite control_step, Z.eqb_refl. cbn [fold_left control_after]. rewrite (proj2 (corr_eqb_neq _ _)) by auto. reflexivity.
  - apply (pok_close x i o s _ _ h n v U PC); [exact PC|exact P|exact A|reflexivity|]. right. exists (gives d), data, false. reflexivity.
  - pose proof (NI c _ _ PC (or_introl eq_refl)) as VN. destruct (reserve_spec _ _ _ _ R) as [AN B]. destruct P as [P1 P2 P3]. set (ev := [Opened c (Z.of_nat n) (gives d); Got c (gives d) data true]) in *.
    assert (EO : opened x (h ++ [(x, i, o, ev)]) = (Z.of_nat n, c) :: opened x h) by (rewrite opened_step, Z.eqb_refl; reflexivity).
    assert (EC : forall c', control x c' (h ++ [(x, i, o, ev)]) = if corr_eqb c c' then gives d else control x c' h) by (intros c'; rewrite control_step, Z.eqb_refl; unfold ev; cbn [fold_left control_after]; destruct (corr_eqb c c'); cbn [andb]; [destruct d|]; reflexivity).
    constructor; cbn [p_descs w_serv w_descs w_inbox p_conn].
    + intros k u. rewrite B. destruct (k =? n)%nat eqn:K.
      * apply Nat.eqb_eq in K. subst k. intros [= <-]. right. rewrite EO, EC. cbn [v_corr v_dup]. rewrite corr_eqb_refl. split; [left; reflexivity|reflexivity].
      * apply Nat.eqb_neq in K. intros A. destruct (P1 k u A) as [(c' & E)|[B1 B2]]; [congruence|]. right. rewrite EO, EC. split; [right; exact B1|]. rewrite (proj2 (corr_eqb_neq c (v_corr u))) by (intros E; exact (val_none _ _ VN k u A (eq_sym E))). exact B2.
    + intros e c'. rewrite EO. intros [[= <- <-]|Q].
      * exists n, (mk_value c f d false). rewrite B, Nat.eqb_refl. repeat split; auto. rewrite PC. discriminate.
      * destruct (P2 e c' Q) as (k & u & -> & A & C & _). exists k, u. assert (K : k <> n) by (intros ->; congruence). rewrite B, (proj2 (Nat.eqb_neq _ _) K). repeat split; auto. rewrite PC. discriminate.
    + rewrite EO. cbn [map fst]. constructor; [|exact P3]. intros Q. apply in_map_iff in Q. destruct Q as ([e c'] & E & Q). cbn in E. subst e. destruct (P2 _ _ Q) as (k & u & E & A & _). apply Nat2Z.inj in E. subst k. congruence.
  - apply (pok_same x i o s); auto; [rewrite opened_step, Z.eqb_refl; reflexivity|intros c; rewrite control_step, Z.eqb_refl; reflexivity].
  - apply (pok_same x i o s); auto; [rewrite opened_step, Z.eqb_refl; reflexivity|intros c'; rewrite control_step, Z.eqb_refl; reflexivity].
Qed.
Lemma pok_hist x s h h' : of_proc x h = of_proc x h' -> POk x s h -> POk x s h'.
Proof. intros E [P1 P2 P3]. assert (EO : opened x h' = opened x h) by (unfold opened; rewrite E; reflexivity). assert (EC : forall c, control x c h' = control x c h) by (intros c; unfold control; rewrite E; reflexivity). constructor; [intros n v; rewrite EO, EC; apply P1|intros d c; rewrite EO; apply P2|rewrite EO; exact P3]. Qed.
Lemma pok_inbox x s l h : POk x s h -> POk x (w_inbox l s) h.
Proof. intros [P1 P2 P3]. constructor; assumption. Qed.

Definition All (w : world) (h : list entry) : Prop := Inv w h /\ forall x, POk x (w_proc w x) h.
Lemma all0 : All world0 [].
Proof. split; [exact inv0|]. intros x. constructor; [intros [|n] v E; discriminate E|intros d c []|constructor]. Qed.

Lemma fresh_call w h p i o s ms ev c t : Inv w h -> (forall so ro dat t f, i = Tpconnect so ro dat (Found t f) -> t <> p) -> move p i o (w_proc w p) s ms ev -> In (Called c t) ev -> val c (p_descs (w_proc w p)) = None.
Proof.
  intros IV OC M B. destruct M as [| |t' d data ds n PC CT CE R|n c' a b g PC EI G|n c' PC|n v PC A|n v PC A VI EI EO|n v a m b PC A EI MC MB|n v d data PC A DV NM|n v a d data b told PC A DV EI NA|n v a d data b PC A DV EI|c' f d data r ds n PC PS EP EI R|m r PC PS EP EI RQ|n c' f ou user data ms PS A MS]; cbn [In] in B; repeat (destruct B as [B|B]; try discriminate B); try contradiction.
  destruct CE as (so & ro & dat & f & EC). injection B as <- <-. exact (proj1 (keep_call w h p i o t' d data ds n IV (OC so ro dat t' f EC) R)).
Qed.
Lemma fresh_invoke w h p i o s ms ev c d b : Inv w h -> move p i o (w_proc w p) s ms ev -> p_conn (w_proc w p) = None -> In (Opened c d b) ev -> val c (p_descs (w_proc w p)) = None.
Proof.
  intros IV M EP B. destruct M as [| |t' d' data ds n PC CT CE R|n c' a b' g PC EI G|n c' PC|n v PC A|n v PC A VI EI EO|n v a m b' PC A EI MC MB|n v d' data PC A DV NM|n v a d' data b' told PC A DV EI NA|n v a d' data b' PC A DV EI|c' f d' data r ds n PC PS EP' EI R|m r PC PS EP' EI RQ|n c' f ou user data ms PS A MS]; cbn [In] in B; repeat (destruct B as [B|B]; try discriminate B); try contradiction; [congruence|].
  injection B as <- <- <-. exact (proj1 (keep_invoke w h p i o c' f d' data r ds n IV PS EI R)).
Qed.

Lemma act_all w h a : All w h -> ordinary a h -> All (fst (act a w)) (h ++ snd (act a w)).
Proof.
  intros [IV PO] OR. assert (OP : forall p, a = Do p Pump -> p_conn (w_proc w p) = None -> forall n v, at_ n (p_descs (w_proc w p)) = Some v -> fst (v_corr v) <> p).
  { intros p -> PC n v A. cbn in OR. destruct (p_has _ _ _ (PO p) n v A) as [(c & E)|[B _]]; [congruence|]. exact (OR _ _ B). }
  assert (OC : forall p so ro dat t f, a = Do p (Tpconnect so ro dat (Found t f)) -> t <> p) by (intros p so ro dat t f ->; exact OR).
  split.
  - destruct a as [p i|x y|p c]; [|apply act_keep; [exact IV|discriminate|discriminate]|apply act_keep; [exact IV|discriminate|discriminate]].
    destruct (p_conn (w_proc w p)) as [[n c]|] eqn:PC; [|apply act_keep; [exact IV|intros q Q; assert (E : p = q) by congruence; subst q; exact (OP p Q PC)|exact OC]].
    destruct i; try (apply act_keep; [exact IV|discriminate|exact OC]). cbn [act]. unfold step. rewrite PC. cbn [fst snd map].
    fold (nw w p (w_proc w p) []). apply (inv_ext w); [intros y; unfold nw; cbn [w_proc]; destruct (Z.eq_dec y p) as [->|N]; [apply put_same|apply put_other; exact N]|unfold nw; cbn [w_net map]; apply app_nil_r|]. refine (alike_inv _ _ _ _ IV). constructor.
    + intros x. rewrite of_proc_app, of_proc_one. destruct (p =? x); rewrite app_nil_r; reflexivity.
    + intros x d c' B. apply in_app_iff. left. exact B.
  - intros x. destruct a as [p i|y z|p c]; cbn [act].
    + destruct (step p i (w_proc w p)) as [[[s o] ms] ev] eqn:ST. cbn [fst snd w_proc]. destruct (Z.eq_dec x p) as [->|N].
      * rewrite put_same. pose proof (i_uniq _ _ IV p) as U. pose proof (i_conn _ _ IV p) as IC. apply step_move in ST. assert (OCI : forall so ro dat t f, i = Tpconnect so ro dat (Found t f) -> t <> p) by (intros so ro dat t f ->; exact (OC p so ro dat t f eq_refl)). destruct ST as [M|(s1 & n & v & PC & A & ES & (ou & user & data & EE & M) & NP & ND & PS)].
        -- apply (pok_move p i o (w_proc w p) s ms ev h U IC (PO p) M); [intros c t B; exact (fresh_call w h p i o s ms ev c t IV OCI M B)|intros c d b E B; exact (fresh_invoke w h p i o s ms ev c d b IV M E B)].
        -- assert (P1 : POk p s1 (h ++ [(p, i, o, [Closed (v_corr v) (Z.of_nat n)])])) by (apply (pok_close p i o (w_proc w p) s1 _ h n v U PC); [subst s1; exact PC|exact (PO p)|exact A|subst s1; reflexivity|left; reflexivity]).
           assert (U1 : uniq (p_descs s1)) by (subst s1; exact (uniq_none n _ U)). assert (C1 : conn_ok s1) by (subst s1; apply conn_none; exact PC).
           refine (pok_hist p s _ _ _ (pok_move p i o s1 s ms _ _ U1 C1 P1 M _ _)).
           ++ rewrite !of_proc_app, !of_proc_one, EE, Z.eqb_refl, <- app_assoc. reflexivity.
           ++ intros c t [B|[]]. discriminate B.
           ++ intros c d b _ [B|[]]. discriminate B.
      * rewrite put_other by exact N. apply (pok_hist x _ h); [|exact (PO x)]. rewrite of_proc_app, of_proc_one, (proj2 (Z.eqb_neq p x)) by auto. rewrite app_nil_r. reflexivity.
    + destruct (take_net y z (w_net w)) as [[m r]|]; cbn [fst snd]; rewrite app_nil_r; [|exact (PO x)]. cbn [w_proc]. destruct (Z.eq_dec x z) as [->|N]; [rewrite put_same; apply pok_inbox; exact (PO z)|rewrite put_other by exact N; exact (PO x)].
    + cbn [fst snd w_proc]. rewrite app_nil_r. destruct (Z.eq_dec x p) as [->|N]; [rewrite put_same; apply pok_inbox; exact (PO p)|rewrite put_other by exact N; exact (PO x)].
Qed.
Lemma acts_all l : forall w h, All w h -> all_ordinary l w h -> All (fst (acts l w)) (h ++ snd (acts l w)).
Proof.
  induction l as [|a l IH]; intros w h A O; cbn [acts]; [cbn; rewrite app_nil_r; exact A|]. cbn [all_ordinary] in O. destruct O as [O1 O2]. pose proof (act_all w h a A O1) as A1. destruct (act a w) as [w1 h1]. cbn [fst snd] in *. specialize (IH w1 (h ++ h1) A1 O2). destruct (acts l w1) as [w2 h2]. cbn [fst snd] in *. rewrite app_assoc. exact IH.
Qed.
Lemma reached l w h : acts l world0 = (w, h) -> all_ordinary l world0 [] -> All w h.
Proof. intros E O. pose proof (acts_all l world0 [] all0 O) as A. rewrite E in A. exact A. Qed.
