(* Every action keeps the invariant: all of it *)
From Coq Require Import ZArith List Bool Lia.
From Verif Require Import ConvModel ConvSpec ConvProofs ConvInv ConvShape ConvMove ConvKeep ConvKept ConvAll.
Import ListNotations.
Local Open Scope Z_scope.

Lemma keep_move w h x i o s ms ev : Inv w h -> move x i o (w_proc w x) s ms ev ->
  (forall so ro dat t f, i = Tpconnect so ro dat (Found t f) -> t <> x) -> (i = Pump -> forall n v, at_ n (p_descs (w_proc w x)) = Some v -> fst (v_corr v) <> x) ->
  Inv (nw w x s ms) (h ++ [(x, i, o, ev)]).
Proof.
  intros IV M OC OP. pose proof (i_uniq _ _ IV x) as U. pose proof (i_conn _ _ IV x) as IC.
  destruct M as [| |t d data ds n PC CT CE R|n c a b g PC EI G|n c PC|n v PC A|n v PC A VI EI EO|n v a m b PC A EI MC MB|n v d data PC A DV NM|n v a d data b told PC A DV EI NA|n v a d data b PC A DV EI|c f d data r ds n PC PS EP EI R|m r PC PS EP EI RQ|n c f ou user data ms PS A MS].
  - apply (build w h); [exact IV|exact U|exact IC|]. intros c. apply keep_same; auto; reflexivity.
  - apply (build w h); [exact IV|exact U|exact IC|]. intros c. apply keep_same; auto; try reflexivity. cbn. lia.
  - destruct CE as (so & ro & dat & f & EC). assert (NT : t <> x) by exact (OC so ro dat t f EC). destruct (keep_call w h x i o t d data ds n IV NT R) as [VN K]. set (c := (x, p_next (w_proc w x))) in *. apply (build w h); [exact IV|exact (uniq_reserve (mk_value c t d true) _ _ _ U VN R)| |].
    + intros k c' E. cbn in E. injection E as <- <-. exists (mk_value c t d true). destruct (reserve_spec _ _ _ _ R) as [_ B]. cbn [p_descs w_conn w_descs]. rewrite B, Nat.eqb_refl. auto.
    + apply (rest w h x i o _ _ _ c IV); [| | | | | |exact K].
      * intros c' N. cbn [p_descs w_conn w_descs]. rewrite (val_reserve c' _ _ _ _ U (VN : val (v_corr (mk_value c t d true)) _ = None) R). cbn [v_corr]. rewrite (proj2 (corr_eqb_neq _ _)) by auto. reflexivity.
      * intros c' N k g. reflexivity.
      * intros c' N. reflexivity.
      * intros y m [[= <- <-]|[]]. reflexivity.
      * intros v [<-|[<-|[]]]; reflexivity.
      * cbn. lia.
  - destruct (IC n c PC) as (v & A & VC & VI). apply (build w h); [exact IV|exact U|apply conn_none; reflexivity|].
    apply (rest w h x i o _ _ _ c IV); [| | | | | |exact (keep_connected w h x i o n c a b g IV PC EI)].
    + intros c' N. reflexivity.
    + intros c' N k f. reflexivity.
    + intros c' N. cbn [p_inbox w_conn w_inbox]. rewrite EI. apply (mine_others c); [reflexivity|exact N].
    + intros y m [].
    + intros u [<-|[]]. exact I.
    + cbn. lia.
  - destruct (IC n c PC) as (v & A & VC & VI). apply (build w h); [exact IV|exact (uniq_none n _ U)|apply conn_none; reflexivity|]. subst c.
    apply (rest w h x i o _ _ _ (v_corr v) IV).
    + intros c' N. exact (val_others c' _ n v U A N).
    + intros c' N k f. reflexivity.
    + intros c' N. reflexivity.
    + intros y m [].
    + intros u [].
    + cbn. lia.
    + apply (keep_close w h x i o _ _ _ n v (mine (v_corr v) (p_inbox (w_proc w x))) [] [] IV A); try reflexivity; auto; rewrite ?app_nil_r; reflexivity.
  - apply (build w h); [exact IV|exact (uniq_none n _ U)|apply conn_none; exact PC|].
    apply (rest w h x i o _ _ _ (v_corr v) IV).
    + intros c' N. exact (val_others c' _ n v U A N).
    + intros c' N k f. reflexivity.
    + intros c' N. reflexivity.
    + intros y m [].
    + intros u [<-|[]]. exact I.
    + cbn. lia.
    + apply (keep_close w h x i o _ _ _ n v (mine (v_corr v) (p_inbox (w_proc w x))) [] [] IV A); try reflexivity; auto; rewrite ?app_nil_r; try reflexivity. intros t [E|[]]. discriminate E.
  - apply (build w h); [exact IV|exact (uniq_none n _ U)|apply conn_none; exact PC|].
    apply (rest w h x i o _ _ _ (v_corr v) IV).
    + intros c' N. exact (val_others c' _ n v U A N).
    + intros c' N k f. reflexivity.
    + intros c' N. reflexivity.
    + intros y m [[= <- <-]|[]]. reflexivity.
    + intros u [<-|[]]. exact I.
    + cbn. lia.
    + apply (keep_close w h x i o _ _ _ n v (mine (v_corr v) (p_inbox (w_proc w x))) [] [] IV A); try reflexivity; auto; rewrite ?app_nil_r; try reflexivity; [intros t [E|[]]; discriminate E|]. right. split; [exact VI|]. split; [reflexivity|]. exists (Z.of_nat n). auto.
  - apply (build w h); [exact IV|exact (uniq_none n _ U)|apply conn_none; exact PC|].
    apply (rest w h x i o _ _ _ (v_corr v) IV).
    + intros c' N. exact (val_others c' _ n v U A N).
    + intros c' N k f. reflexivity.
    + intros c' N. cbn [p_inbox w_descs w_inbox]. rewrite EI. apply (mine_others (v_corr v)); [exact MC|exact N].
    + intros y k [].
    + intros u [<-|[]]. exact I.
    + cbn. lia.
    + apply (keep_close w h x i o _ _ _ n v (mine (v_corr v) a) (mine (v_corr v) [m]) (mine (v_corr v) b) IV A); try reflexivity.
      * rewrite EI. apply mine_mid.
      * cbn [p_inbox w_descs w_inbox]. apply mine_app.
      * destruct m as [mc mb]. cbn [m_corr m_body] in *. subst mc. destruct (is_died mb) eqn:D; [left; destruct mb; try discriminate D; apply mine_died|right; exists mb]. split; [apply mine_one; exact D|]. destruct mb; try reflexivity. destruct MB.
      * intros t [E|[]]. discriminate E.
      * left. reflexivity.
  - apply (build w h); [exact IV|exact (uniq_same n _ v (v_with d v) U A eq_refl)|apply conn_none; exact PC|].
    apply (rest w h x i o _ _ _ (v_corr v) IV); [| | | | | |exact (keep_send w h x i o _ n v d data IV A DV eq_refl)].
    + intros c' N. exact (val_with_others c' _ n v d U A N).
    + intros c' N k f. reflexivity.
    + intros c' N. reflexivity.
    + intros y m [[= <- <-]|[]]. reflexivity.
    + intros u [<-|[]]. reflexivity.
    + cbn. lia.
  - apply (build w h); [exact IV|exact (uniq_same n _ v (v_with d v) U A eq_refl)|apply conn_none; exact PC|].
    apply (rest w h x i o _ _ _ (v_corr v) IV); [| | | | | |exact (keep_recv w h x i o _ n v a d data b told IV A DV EI NA eq_refl)].
    + intros c' N. exact (val_with_others c' _ n v d U A N).
    + intros c' N k f. reflexivity.
    + intros c' N. cbn [p_inbox w_descs w_inbox]. rewrite EI. apply (mine_others (v_corr v)); [reflexivity|exact N].
    + intros y m [].
    + intros u [<-|[]]. reflexivity.
    + cbn. lia.
  - destruct (never_bad w h x n v a d data b IV A DV EI).
  - destruct (keep_invoke w h x i o c f d data r ds n IV PS EI R) as [VN K]. apply (build w h); [exact IV|exact (uniq_reserve (mk_value c f d false) _ _ _ U VN R)|apply conn_none; exact PC|].
    apply (rest w h x i o _ _ _ c IV); [| | | | | |exact K].
    + intros c' N. cbn [p_descs w_serv w_descs]. rewrite (val_reserve c' _ _ _ _ U (VN : val (v_corr (mk_value c f d false)) _ = None) R). cbn [v_corr]. rewrite (proj2 (corr_eqb_neq _ _)) by auto. reflexivity.
    + intros c' N k g. cbn [p_serv w_serv]. rewrite PS. split; [intros [= _ E _]; congruence|discriminate].
    + intros c' N. cbn [p_inbox w_serv w_descs w_inbox]. rewrite EI. symmetry. apply mine_other. cbn. auto.
    + intros y m [[= <- <-]|[]]. reflexivity.
    + intros u [<-|[<-|[]]]; [exact I|reflexivity].
    + cbn. lia.
  - apply (build w h); [exact IV|exact U|apply conn_none; exact PC|]. intros c'. destruct (corr_dec c' (m_corr m)) as [->|N]; [exact (keep_lost w h x i o m r IV PS (OP EP) EI RQ)|].
    apply keep_same; auto; try reflexivity; [|intros t [E|[]]; discriminate E]. cbn [p_inbox w_inbox]. rewrite EI. symmetry. apply mine_other. auto.
  - apply (build w h); [exact IV|exact U|exact IC|].
    apply (rest w h x i o _ _ _ c IV); [| | | | | |exact (keep_return w h x i o n c f ou user data ms IV PS A MS)].
    + intros c' N. reflexivity.
    + intros c' N k g. cbn [p_serv w_serv]. rewrite PS. split; [discriminate|intros [= _ E _]; congruence].
    + intros c' N. reflexivity.
    + intros y m B. destruct MS as [-> | ->]; [destruct B|]. destruct B as [[= <- <-]|[]]. reflexivity.
    + intros u [<-|[]]. exact I.
    + cbn. lia.
Qed.

(* ---------------------------------------------------------------- a message arrives *)
Lemma net_out w h a b m l1 l2 c : Inv w h -> w_net w = l1 ++ (a, b, m) :: l2 -> m_corr m = c -> exists t, tgt h c t /\ CInv w h c t /\ a <> b /\ ((a = fst c /\ b = t) \/ (a = t /\ b = fst c)).
Proof.
  intros IV E C. assert (B : In (a, b, mk_msg c (m_body m)) (w_net w)) by (rewrite E; apply in_app_iff; right; left; subst c; destruct m; reflexivity).
  destruct (i_all _ _ IV c) as [(t & T & CI)|[_ UN]]; [|destruct (u_net _ _ _ UN _ _ _ B)]. exists t. split; [exact T|]. split; [exact CI|]. pose proof (c_other _ _ _ _ CI). destruct (c_net _ _ _ _ CI _ _ _ B) as [(-> & -> & _)|(-> & -> & _)]; auto.
Qed.
Definition arrive (w : world) (b : Z) (m : msg) (r : list (Z * Z * msg)) : world := mk_world (put b (w_inbox (p_inbox (w_proc w b) ++ [m]) (w_proc w b)) (w_proc w)) r.
Lemma arrive_keep w h a b m l1 l2 : Inv w h -> w_net w = l1 ++ (a, b, m) :: l2 -> (forall m', ~ In (a, b, m') l1) -> Inv (arrive w b m (l1 ++ l2)) h.
Proof.
  intros IV E N1. set (w' := arrive w b m (l1 ++ l2)). set (s' := w_inbox (p_inbox (w_proc w b) ++ [m]) (w_proc w b)).
  assert (PB : w_proc w' b = s') by (unfold w', arrive; cbn [w_proc]; apply put_same). assert (PO : forall y, y <> b -> w_proc w' y = w_proc w y) by (intros y N; unfold w', arrive; cbn [w_proc]; apply put_other; exact N).
  assert (DD : forall y, p_descs (w_proc w' y) = p_descs (w_proc w y)) by (intros y; destruct (Z.eq_dec y b) as [->|N]; [rewrite PB; reflexivity|rewrite PO by exact N; reflexivity]).
  assert (DS : forall y, p_serv (w_proc w' y) = p_serv (w_proc w y)) by (intros y; destruct (Z.eq_dec y b) as [->|N]; [rewrite PB; reflexivity|rewrite PO by exact N; reflexivity]).
  assert (DC : forall y, p_conn (w_proc w' y) = p_conn (w_proc w y)) by (intros y; destruct (Z.eq_dec y b) as [->|N]; [rewrite PB; reflexivity|rewrite PO by exact N; reflexivity]).
  assert (DN : forall y, p_next (w_proc w' y) = p_next (w_proc w y)) by (intros y; destruct (Z.eq_dec y b) as [->|N]; [rewrite PB; reflexivity|rewrite PO by exact N; reflexivity]).
  assert (NI : forall z, In z (w_net w') -> In z (w_net w)). { intros z. unfold w', arrive. cbn [w_net]. rewrite E, !in_app_iff. intros [Z|Z]; [left; exact Z|right; right; exact Z]. }
  constructor.
  - intros y. rewrite DD. apply (i_uniq _ _ IV).
  - intros y. rewrite DD, DC. apply (i_conn _ _ IV).
  - intros c. destruct (corr_dec (m_corr m) c) as [C|C].
    + destruct (net_out w h a b m l1 l2 c IV E C) as (t & T & CI & AB & W). left. exists t. split; [exact T|]. pose proof CI as [c1 c2 c3 c4 c5 c6 c7 c8 c9 c10 c11].
      assert (M : m = mk_msg c (m_body m)) by (destruct m; cbn in *; congruence).
      assert (NB : In (a, b, mk_msg c (m_body m)) (w_net w)) by (rewrite <- M, E; apply in_app_iff; right; left; reflexivity).
      assert (ND : is_died (m_body m) = false). { destruct (c10 _ _ _ NB) as [(_ & _ & L)|(_ & _ & L)]; destruct (m_body m); cbn in L; try reflexivity; destruct L. }
      assert (MB : mine c (p_inbox (w_proc w' b)) = mine c (p_inbox (w_proc w b)) ++ [m_body m]) by (rewrite PB; unfold s'; cbn [p_inbox w_inbox]; rewrite mine_app; f_equal; rewrite M; cbn [m_body]; apply mine_one; exact ND).
      assert (PP : forall x y, path x y c w' = path x y c w \/ y = b /\ x <> a).
      { intros x y. destruct (Z.eq_dec y b) as [->|NY].
        - destruct (Z.eq_dec x a) as [->|NX]; [left|right; auto]. unfold path. rewrite MB. unfold w', arrive. cbn [w_net]. rewrite E, !way_app. change ((a, b, m) :: l2) with ([(a, b, m)] ++ l2). rewrite way_app, (way_none a b c l1 N1). cbn [app]. rewrite <- app_assoc. f_equal. unfold way at 2. cbn [flat_map]. rewrite !Z.eqb_refl, C, corr_eqb_refl. reflexivity.
        - left. unfold path. rewrite (PO y NY). f_equal. unfold w', arrive. cbn [w_net]. rewrite E, !way_app. change ((a, b, m) :: l2) with ([(a, b, m)] ++ l2). rewrite way_app. f_equal. unfold way at 2. cbn [flat_map]. rewrite (proj2 (Z.eqb_neq b y)) by auto. rewrite andb_false_r. reflexivity. }
      assert (PS : path (fst c) t c w' = path (fst c) t c w) by (destruct (PP (fst c) t) as [Q|[Q1 Q2]]; [exact Q|exfalso; destruct W as [[-> ->]|[-> ->]]; congruence]).
      assert (PI : path t (fst c) c w' = path t (fst c) c w) by (destruct (PP t (fst c)) as [Q|[Q1 Q2]]; [exact Q|exfalso; destruct W as [[-> ->]|[-> ->]]; congruence]).
      constructor.
      * exact c1.
      * rewrite DN. exact c2.
      * exact c3.
      * unfold V. rewrite DD. exact c4.
      * unfold V. rewrite DD, DS. exact c5.
      * intros y X1 X2. assert (NY : y <> b) by (destruct W as [[-> ->]|[-> ->]]; assumption). unfold V. rewrite DD, (PO y NY). exact (c6 y X1 X2).
      * intros y k f. rewrite DS, PS, PI. apply c7.
      * intros k K. destruct (Z.eq_dec (fst c) b) as [Q|Q]; [|rewrite (PO _ Q) in K; exact (c8 k K)]. rewrite Q, MB in K. apply in_app_iff in K. destruct K as [K|[<-|[]]]; [rewrite <- Q in K; exact (c8 k K)|]. destruct (c10 _ _ _ NB) as [(Q1 & Q2 & _)|(_ & _ & L)]; [congruence|exact L].
      * intros k K. destruct (Z.eq_dec t b) as [Q|Q]; [|rewrite (PO _ Q) in K; exact (c9 k K)]. rewrite Q, MB in K. apply in_app_iff in K. destruct K as [K|[<-|[]]]; [rewrite <- Q in K; exact (c9 k K)|]. destruct (c10 _ _ _ NB) as [(_ & _ & L)|(Q1 & Q2 & _)]; [exact L|congruence].
      * intros x y k K. apply NI in K. exact (c10 x y k K).
      * unfold V. rewrite !DD, PS, PI. exact c11.
    + apply (same_inv w h); [|exact (i_all _ _ IV c)]. constructor.
      * intros y. unfold V. rewrite DD. reflexivity.
      * intros y k f. rewrite DS. reflexivity.
      * intros y. destruct (Z.eq_dec y b) as [->|N]; [rewrite PB; unfold s'; cbn [p_inbox w_inbox]; rewrite mine_app, (mine_other c m [] C); apply app_nil_r|rewrite PO by exact N; reflexivity].
      * intros x y. unfold w', arrive. cbn [w_net]. rewrite E, !way_app. change ((a, b, m) :: l2) with ([(a, b, m)] ++ l2). rewrite way_app. f_equal. unfold way at 2. cbn [flat_map]. rewrite (proj2 (corr_eqb_neq _ _) C), andb_false_r. reflexivity.
      * auto.
      * reflexivity.
      * apply incl_refl.
      * intros y. rewrite DN. lia.
Qed.
Lemma died_keep w h p c0 : Inv w h -> Inv (mk_world (put p (w_inbox (p_inbox (w_proc w p) ++ [mk_msg c0 ServerDied]) (w_proc w p)) (w_proc w)) (w_net w)) h.
Proof.
  intros IV. set (w' := mk_world _ _).
  assert (PB : w_proc w' p = w_inbox (p_inbox (w_proc w p) ++ [mk_msg c0 ServerDied]) (w_proc w p)) by (unfold w'; cbn [w_proc]; apply put_same). assert (PO : forall y, y <> p -> w_proc w' y = w_proc w y) by (intros y N; unfold w'; cbn [w_proc]; apply put_other; exact N).
  assert (DD : forall y, p_descs (w_proc w' y) = p_descs (w_proc w y)) by (intros y; destruct (Z.eq_dec y p) as [->|N]; [rewrite PB; reflexivity|rewrite PO by exact N; reflexivity]).
  assert (DS : forall y, p_serv (w_proc w' y) = p_serv (w_proc w y)) by (intros y; destruct (Z.eq_dec y p) as [->|N]; [rewrite PB; reflexivity|rewrite PO by exact N; reflexivity]).
  assert (DC : forall y, p_conn (w_proc w' y) = p_conn (w_proc w y)) by (intros y; destruct (Z.eq_dec y p) as [->|N]; [rewrite PB; reflexivity|rewrite PO by exact N; reflexivity]).
  assert (DN : forall y, p_next (w_proc w' y) = p_next (w_proc w y)) by (intros y; destruct (Z.eq_dec y p) as [->|N]; [rewrite PB; reflexivity|rewrite PO by exact N; reflexivity]).
  constructor.
  - intros y. rewrite DD. apply (i_uniq _ _ IV).
  - intros y. rewrite DD, DC. apply (i_conn _ _ IV).
  - intros c. apply (same_inv w h); [|exact (i_all _ _ IV c)]. constructor.
    + intros y. unfold V. rewrite DD. reflexivity.
    + intros y k f. rewrite DS. reflexivity.
    + intros y. destruct (Z.eq_dec y p) as [->|N]; [rewrite PB; cbn [p_inbox w_inbox]; rewrite mine_app, mine_died; apply app_nil_r|rewrite PO by exact N; reflexivity].
    + reflexivity.
    + auto.
    + reflexivity.
    + apply incl_refl.
    + intros y. rewrite DN. lia.
Qed.

(* the two entries of tpreturn are one *)
Record alike (h h' : list entry) : Prop := mk_alike { a_of : forall x, of_proc x h = of_proc x h'; a_dis : forall x d c, In (x, Tpdiscon d None, O_ok, [Closed c d]) h -> In (x, Tpdiscon d None, O_ok, [Closed c d]) h' }.
Lemma alike_inv w h h' : alike h h' -> Inv w h -> Inv w h'.
Proof.
  intros [A D] [I1 I2 I3]. assert (AS : forall x c, sent x c h' = sent x c h) by (intros; unfold sent; rewrite A; reflexivity). assert (AG : forall x c, got x c h' = got x c h) by (intros; unfold got; rewrite A; reflexivity).
  assert (AT : forall c t, tgt h' c t <-> tgt h c t) by (intros; unfold tgt; rewrite A; reflexivity).
  assert (TS : forall c b, to_sub h c b -> to_sub h' c b) by (intros c b; destruct b; cbn; auto; intros (d & Q); exists d; apply D; exact Q).
  assert (TI : forall c t b, to_init h c t b -> to_init h' c t b) by (intros c t b; destruct b; cbn; auto; [intros (d & g & Q); exists d, g; rewrite <- A; exact Q|intros (ou & Q1 & Q2); exists ou; rewrite <- A; auto]).
  constructor; [exact I1|exact I2|]. intros c. destruct (I3 c) as [(t & T & CI)|[N UN]].
  - left. exists t. split; [apply AT; exact T|]. destruct CI as [c1 c2 c3 c4 c5 c6 c7 c8 c9 c10 c11]. constructor; auto.
    + intros t' T'. apply c3, AT, T'.
    + intros y X1 X2. rewrite AS, AG. exact (c6 y X1 X2).
    + intros x y b B. destruct (c10 x y b B) as [(E1 & E2 & L)|(E1 & E2 & L)]; [left|right]; auto.
    + rewrite !AS, !AG. exact c11.
  - right. split; [intros t T; apply AT in T; exact (N t T)|]. destruct UN as [u1 u2 u3 u4 u5]. constructor; auto. intros y. rewrite AS, AG. apply u5.
Qed.
Lemma nw_nw w x s1 s ms : forall y, w_proc (nw (nw w x s1 []) x s ms) y = w_proc (nw w x s ms) y.
Proof. intros y. unfold nw. cbn [w_proc]. destruct (Z.eq_dec y x) as [->|N]; [rewrite !put_same; reflexivity|rewrite !put_other by exact N; reflexivity]. Qed.
Lemma inv_ext w w' h : (forall y, w_proc w' y = w_proc w y) -> w_net w' = w_net w -> Inv w h -> Inv w' h.
Proof.
  intros E N [I1 I2 I3]. constructor; [intros y; rewrite E; apply I1|intros y; rewrite E; apply I2|]. intros c. apply (same_inv w h); [|exact (I3 c)]. constructor; try reflexivity; intros; rewrite ?E; try reflexivity; try lia; auto.
  - unfold V. rewrite E. reflexivity.
  - rewrite N. reflexivity.
  - apply incl_refl.
Qed.

Theorem act_keep w h a : Inv w h -> (forall p, a = Do p Pump -> forall n v, at_ n (p_descs (w_proc w p)) = Some v -> fst (v_corr v) <> p) ->
  (forall p so ro dat t f, a = Do p (Tpconnect so ro dat (Found t f)) -> t <> p) -> Inv (fst (act a w)) (h ++ snd (act a w)).
Proof.
  intros IV OP OC. destruct a as [p i|a b|p c]; cbn [act].
  - destruct (step p i (w_proc w p)) as [[[s o] ms] ev] eqn:ST. cbn [fst snd]. fold (nw w p s ms). apply step_move in ST. destruct ST as [M|(s1 & n & v & PC & A & ES & (ou & user & data & EE & M) & NP & ND & PS)].
    + apply keep_move; [exact IV|exact M|intros so ro dat t f ->; exact (OC p so ro dat t f eq_refl)|intros ->; exact (OP p eq_refl)].
    + assert (I1 : Inv (nw w p s1 []) (h ++ [(p, i, o, [Closed (v_corr v) (Z.of_nat n)])])).
      { apply keep_move; [exact IV|subst s1; exact (mv_leave p i o (w_proc w p) n v PC A)|intros so ro dat t f ->; exact (OC p so ro dat t f eq_refl)|intros ->; congruence]. }
      assert (W1 : w_proc (nw w p s1 []) p = s1) by (unfold nw; cbn [w_proc]; apply put_same).
      assert (I2 := keep_move (nw w p s1 []) _ p i o s ms _ I1 ltac:(rewrite W1; exact M) ltac:(intros so ro dat t f ->; exact (OC p so ro dat t f eq_refl)) ltac:(intros ->; congruence)).
      apply (inv_ext (nw (nw w p s1 []) p s ms)); [intros y; symmetry; apply nw_nw|unfold nw; cbn [w_net map]; rewrite app_nil_r; reflexivity|].
      refine (alike_inv _ _ _ _ I2). constructor.
      * intros x. rewrite !of_proc_app, !of_proc_one, EE. destruct (p =? x); [rewrite <- app_assoc; reflexivity|rewrite !app_nil_r; reflexivity].
      * intros x d c B. rewrite !in_app_iff in B. destruct B as [[B|[B|[]]]|[B|[]]]; [apply in_app_iff; left; exact B|injection B as _ EI _ _ _; destruct (ND _ EI)|discriminate B].
  - destruct (take_net a b (w_net w)) as [[m r]|] eqn:TN; cbn [fst snd]; rewrite app_nil_r; [|exact IV]. apply take_net_split in TN. destruct TN as (l1 & l2 & E & -> & N1). exact (arrive_keep w h a b m l1 l2 IV E N1).
  - cbn [fst snd]. rewrite app_nil_r. apply died_keep. exact IV.
Qed.
