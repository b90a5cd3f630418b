(* Facts about everything the transaction manager can reach: fans, the book, where coordinations come from. *)
From Coq Require Import ZArith List Bool Lia Permutation.
From Verif Require Import CodesModel FanModel FanSpec FanProofs FanTrack TmModel TmSpec TmMicro.
From Verif Require GroupModel GroupProofs.
Import ListNotations.
Local Open Scope Z_scope.

(* ------------------------------------------------------------ the requests of a round *)
Fixpoint reqs (c : Z) (ts : list (trid * Z)) : list (Z * Z) := match ts with [] => [] | (_, r) :: q => (c, r) :: reqs (c + 1) q end.
Fixpoint asked (k : kind) (fl : bool) (c : Z) (ts : list (trid * Z)) : acts :=
  match ts with [] => [] | (t, r) :: q => Ask k c t r fl :: asked k fl (c + 1) q end.

Lemma ask_spec k fl ts : forall s, ask k fl ts s = (w_next (s_next s + Z.of_nat (length ts)) s, reqs (s_next s) ts, asked k fl (s_next s) ts).
Proof.
  induction ts as [|[t r] ts IH]; intros s; cbn [ask reqs asked].
  - f_equal. f_equal. destruct s; cbn. unfold w_next; cbn. f_equal. lia.
  - rewrite IH. cbn [w_next s_next]. f_equal. f_equal. unfold w_next; cbn. f_equal. cbn [length]. lia.
Qed.

Lemma reqs_fst ts : forall c c', In c' (map fst (reqs c ts)) -> c <= c' < c + Z.of_nat (length ts).
Proof.
  induction ts as [|[t r] ts IH]; intros c c'; cbn [reqs map In length fst]; [tauto|]. intros [<-|H]; [lia|]. apply IH in H. lia.
Qed.

Lemma reqs_nodup ts : forall c, NoDup (map fst (reqs c ts)).
Proof.
  induction ts as [|[t r] ts IH]; intros c; cbn [reqs map fst]; constructor; auto. intros H. apply reqs_fst in H. lia.
Qed.

Lemma reqs_in ts : forall c c' i, In (c', i) (reqs c ts) <-> exists n t, nth_error ts n = Some (t, i) /\ c' = c + Z.of_nat n.
Proof.
  induction ts as [|[t r] ts IH]; intros c c' i; cbn [reqs In].
  - split; [tauto|]. intros ([|n]&t&H&_); discriminate.
  - rewrite IH. split.
    + intros [H|(n&u&H&->)].
      * injection H as <- <-. exists 0%nat, t. split; auto. lia.
      * exists (S n), u. split; auto. lia.
    + intros ([|n]&u&H&->).
      * simpl in H. injection H as <- <-. left. f_equal. lia.
      * right. exists n, u. split; auto. lia.
Qed.

Lemma asked_nth k fl ts : forall c n, nth_error (asked k fl c ts) n = match nth_error ts n with Some (t, r) => Some (Ask k (c + Z.of_nat n) t r fl) | None => None end.
Proof.
  induction ts as [|[t r] ts IH]; intros c [|n]; cbn [asked nth_error]; auto.
  - f_equal. f_equal. lia.
  - rewrite IH. destruct (nth_error ts n) as [[u q]|]; auto. f_equal. f_equal. lia.
Qed.

Lemma asked_length k fl ts : forall c, length (asked k fl c ts) = length ts.
Proof. induction ts as [|[t r] ts IH]; intros c; cbn [asked length]; auto. Qed.

(* ------------------------------------------------------------ replies and failures among the events *)
Definition ops (k : kind) (tr : list event) : list (fop vote call) :=
  flat_map (fun e => match e with
                     | Recv (IReply k' c v) => if kind_eqb k' k then [Reply c v] else []
                     | Act (GaveUp k' id) => if kind_eqb k' k then [Fail id] else []
                     | _ => []
                     end) tr.
Lemma ops_app k a b : ops k (a ++ b) = ops k a ++ ops k b.
Proof. apply flat_map_app. Qed.
Lemma ops_asked k k' fl ts : forall c, ops k (map Act (asked k' fl c ts)) = [].
Proof. induction ts as [|[t r] ts IH]; intros c; simpl; auto. Qed.

Definition plain (a : action) : bool := match a with GaveUp _ _ | Removed _ => false | _ => true end.
Lemma ops_acts k l : (forall a, In a l -> match a with GaveUp _ _ => false | _ => true end = true) -> ops k (map Act l) = [].
Proof.
  induction l as [|a l IH]; intros H; auto. pose proof (H a (or_introl eq_refl)) as HA.
  assert (E : ops k (map Act l) = []) by (apply IH; intros; apply H; simpl; auto). cbn [map].
  change (Act a :: map Act l) with ([Act a] ++ map Act l). rewrite ops_app, E. destruct a; auto; discriminate.
Qed.

Lemma kind_eqb_refl k : kind_eqb k k = true. Proof. destruct k; auto. Qed.
Lemma kind_eqb_eq k k' : kind_eqb k k' = true -> k = k'. Proof. destruct k, k'; auto; discriminate. Qed.
Lemma kind_eqb_neq k k' : kind_eqb k k' = false -> k <> k'. Proof. destruct k, k'; intros H E; discriminate. Qed.

Lemma ops_track k k' o ev : track_event k o ev -> ops k' [ev] = if kind_eqb k k' then [o] else [].
Proof. destruct 1; simpl; destruct (kind_eqb k k'); auto. Qed.

Lemma ops_first k c tr : reply_of k c tr = option_map v_code (first_reply c (ops k tr)).
Proof.
  induction tr as [|e tr IH]; auto. destruct e as [i|a].
  - destruct i; try exact IH. cbn [reply_of ops flat_map]. destruct (kind_eqb k0 k) eqn:E; cbn [andb app first_reply].
    + destruct (c0 =? c); auto.
    + exact IH.
  - destruct a; try exact IH. cbn [reply_of ops flat_map]. destruct (kind_eqb k0 k); exact IH.
Qed.

Lemma in_ops_reply k c v tr : In (Reply c v) (ops k tr) -> In (Recv (IReply k c v)) tr.
Proof.
  unfold ops. intros H. apply in_flat_map in H as (e&E&H). destruct e as [i|a].
  - destruct i; try (destruct H; fail). destruct (kind_eqb k0 k) eqn:K; [|destruct H]. apply kind_eqb_eq in K. destruct H as [H|[]]. injection H as -> ->. subst. auto.
  - destruct a; try (destruct H; fail). destruct (kind_eqb k0 k) eqn:K; [|destruct H]. destruct H as [H|[]]. discriminate.
Qed.

(* ------------------------------------------------------------ accessors *)
Lemma fan_w k k' f s : fan_of k' (w_fan k f s) = if kind_eqb k k' then f else fan_of k' s.
Proof. destruct k, k'; auto. Qed.
Lemma next_w k f s : s_next (w_fan k f s) = s_next s. Proof. destruct k; auto. Qed.
Lemma txs_w k f s : s_txs (w_fan k f s) = s_txs s. Proof. destruct k; auto. Qed.
Lemma find_txs g s s' : s_txs s' = s_txs s -> find_tx g s' = find_tx g s.
Proof. unfold find_tx. intros ->. auto. Qed.
Lemma d_w k k' l D : d_of k' (w_d k l D) = if kind_eqb k k' then l else d_of k' D.
Proof. destruct k, k'; auto. Qed.

Lemma put_gs x l : map x_g (put_tx x l) = map x_g l.
Proof. induction l as [|y l IH]; simpl; auto. destruct (Z.eqb_spec (x_g y) (x_g x)); simpl; congruence. Qed.

Lemma find_upd x y s g : find_tx (x_g x) s = Some y -> find_tx g (upd_tx x s) = if x_g x =? g then Some x else find_tx g s.
Proof.
  unfold find_tx, upd_tx. cbn [s_txs w_txs]. induction (s_txs s) as [|z l IH]; simpl; [discriminate|].
  destruct (Z.eqb_spec (x_g z) (x_g x)) as [E|E]; simpl.
  - intros _. destruct (Z.eqb_spec (x_g x) g); auto. destruct (Z.eqb_spec (x_g z) g); [congruence|auto].
  - intros H. destruct (Z.eqb_spec (x_g z) g) as [E2|E2].
    + destruct (Z.eqb_spec (x_g x) g); [congruence|auto].
    + rewrite IH; auto.
Qed.

Lemma find_snoc x s g : find_tx g (w_txs (s_txs s ++ [x]) s) = match find_tx g s with Some y => Some y | None => if x_g x =? g then Some x else None end.
Proof. unfold find_tx. cbn [s_txs w_txs]. induction (s_txs s) as [|z l IH]; simpl; auto. destruct (x_g z =? g); auto. Qed.

Definition br_of (t : trid) (o : option txn) : list branch := match o with Some x => x_branches x | None => [mk_b t []] end.
Definition st_of (o : option txn) : stage := match o with Some x => x_stage x | None => Involved end.
Lemma find_touched t f s g : find_tx g (touch t f s) =
  if t_g t =? g then Some (mk_x (t_g t) (at_branch t f (br_of t (find_tx (t_g t) s))) (st_of (find_tx (t_g t) s))) else find_tx g s.
Proof.
  unfold touch. destruct (find_tx (t_g t) s) as [x|] eqn:F.
  - pose proof (find_tx_g _ _ _ F) as G. fold (upd_tx (mk_x (x_g x) (at_branch t f (x_branches x)) (x_stage x)) s).
    rewrite (find_upd _ x); [|cbn [x_g]; rewrite G; auto]. cbn [x_g]. rewrite G. destruct (t_g t =? g); auto.
  - rewrite find_snoc. cbn [x_g]. destruct (Z.eqb_spec (t_g t) g) as [<-|].
    + rewrite F. auto.
    + destruct (find_tx g s); auto.
Qed.

Lemma nodup_snoc {A} (l : list A) x : NoDup l -> ~ In x l -> NoDup (l ++ [x]).
Proof. intros N I. apply nodup_app. split; auto. split; [constructor; [simpl; tauto|constructor]|]. intros y Y [<-|[]]. auto. Qed.

Lemma find_none_g g s : find_tx g s = None -> ~ In g (map x_g (s_txs s)).
Proof. unfold find_tx. intros F I. apply in_map_iff in I as (x&<-&I). apply (find_none _ _ F) in I. rewrite Z.eqb_refl in I. discriminate. Qed.

Lemma touch_nodup t f s : NoDup (map x_g (s_txs s)) -> NoDup (map x_g (s_txs (touch t f s))).
Proof.
  intros N. unfold touch. destruct (find_tx (t_g t) s) as [x|] eqn:F; cbn [s_txs w_txs].
  - rewrite put_gs. auto.
  - rewrite map_app. apply nodup_snoc; auto. cbn [x_g]. apply find_none_g. auto.
Qed.

Lemma remove_spec g s s' a : NoDup (map x_g (s_txs s)) -> remove_tx g s = (s', a) ->
  NoDup (map x_g (s_txs s')) /\ (forall h, find_tx h s' = if g =? h then None else find_tx h s) /\
  (forall k, fan_of k s' = fan_of k s) /\ s_next s' = s_next s /\ s_replies s' = s_replies s /\
  s_log s' = filter (fun r => negb (fst r =? g)) (s_log s) /\ s_disk s' = s_disk s /\
  a = match find_tx g s with Some _ => [Removed g] | None => [] end.
Proof.
  intros N. unfold remove_tx. change (find_tx g (w_log (filter (fun r => negb (fst r =? g)) (s_log s)) s)) with (find_tx g s).
  destruct (find_tx g s) as [x|] eqn:F; intros H; injection H as <- <-.
  - split; [|split; [|repeat split; destruct k; auto]].
    + cbn [s_txs w_txs w_log]. revert N. generalize (s_txs s). clear. induction l as [|y l IH]; intros N; auto. inversion N; subst.
      destruct (x_g y =? g); auto. simpl. constructor; auto. intros I. apply H1. clear - I. induction l as [|z l IH]; [destruct I|].
      destruct (x_g z =? g); simpl in *; auto. destruct I; auto.
    + intros h. unfold find_tx. cbn [s_txs w_txs w_log]. clear F. revert N. generalize (s_txs s). clear. induction l as [|y l IH]; intros N; simpl.
      * destruct (g =? h); auto.
      * inversion N; subst. destruct (Z.eqb_spec (x_g y) g) as [E|E].
        -- destruct (Z.eqb_spec g h) as [E2|E2].
           ++ destruct (find _ l) as [z|] eqn:FZ; auto. exfalso. apply find_some in FZ as [F1 F2]. apply Z.eqb_eq in F2. apply H1.
              replace (x_g y) with (x_g z) by congruence. apply in_map. auto.
           ++ destruct (Z.eqb_spec (x_g y) h); [congruence|auto].
        -- simpl. destruct (Z.eqb_spec (x_g y) h) as [E2|E2]; auto. destruct (Z.eqb_spec g h); [congruence|auto].
  - split; auto. split; [|repeat split; destruct k; auto]. intros h. change (find_tx h (w_log (filter (fun r => negb (fst r =? g)) (s_log s)) s)) with (find_tx h s).
    destruct (Z.eqb_spec g h) as [<-|]; auto.
Qed.

(* ------------------------------------------------------------ the fans *)
Record V (s : tm) : Prop := mk_V {
  v_fan : forall k, Finv (fan_of k s);
  v_lt : forall k c, In c (corrs (f_entries (fan_of k s))) -> c < s_next s;
  v_nd : NoDup (map x_g (s_txs s))
}.

Lemma V_same s s' : (forall k, fan_of k s' = fan_of k s) -> s_next s' = s_next s -> NoDup (map x_g (s_txs s')) -> V s -> V s'.
Proof. intros F N X [V1 V2 V3]. split; auto; intros k; rewrite F; auto. intros c I. rewrite N. exact (V2 k c I). Qed.

Lemma V_upd x s : V s -> V (upd_tx x s).
Proof. intros H. apply (V_same s); auto. cbn [upd_tx s_txs w_txs]. rewrite put_gs. apply (v_nd _ H). Qed.

Lemma V_touch t f s : V s -> V (touch t f s).
Proof.
  intros H. apply (V_same s); auto; [| |apply touch_nodup; apply (v_nd _ H)].
  - intros k. unfold touch. destruct (find_tx _ _); destruct k; auto.
  - unfold touch. destruct (find_tx _ _); auto.
Qed.

Lemma V_remove g s s' a : V s -> remove_tx g s = (s', a) -> V s'.
Proof. intros H R. apply remove_spec in R as (R1&R2&R3&R4&_); [|apply (v_nd _ H)]. apply (V_same s); auto. Qed.

Lemma corrs_sub (es es' : list (entry vote call)) : (forall e, In e es' -> exists e0, In e0 es /\ map p_corr (e_pend e) = map p_corr (e_pend e0)) ->
  forall c, In c (corrs es') -> In c (corrs es).
Proof.
  intros H c I. unfold corrs in *. apply in_flat_map in I as (e&E&I). destruct (H e E) as (e0&E0&M). rewrite M in I. apply in_flat_map. eauto.
Qed.

Lemma start_facts k fl ts cb s s3 ps a f ds : V s -> ask k fl ts s = (s3, ps, a) -> fan_start ps cb (fan_of k s3) = (f, ds) ->
  V (w_fan k f s3) /\ s3 = w_next (s_next s + Z.of_nat (length ts)) s /\ a = asked k fl (s_next s) ts /\
  let st := begin (M:=vote) (reqs (s_next s) ts) in
  if done (fst st) then f_entries f = f_entries (fan_of k s) /\ ds = [mk_fired (f_next (fan_of k s)) cb [] (fst st)]
  else f_entries f = f_entries (fan_of k s) ++ [mk_e (f_next (fan_of k s)) (fst st) [] cb] /\ ds = [].
Proof.
  intros H A F. rewrite ask_spec in A. injection A as <- <- <-.
  assert (FE : fan_of k (w_next (s_next s + Z.of_nat (length ts)) s) = fan_of k s) by (destruct k; auto). rewrite FE in F.
  apply start_spec in F as (F1&F2&F3); [|apply (v_fan _ H)|apply reqs_nodup|].
  2:{ intros c C1 C2. apply (v_lt _ H) in C2. apply reqs_fst in C1. lia. }
  split; [|auto]. destruct H as [V1 V2 V3]. split.
  - intros k'. rewrite fan_w. destruct (kind_eqb k k') eqn:E; auto. exact (V1 k').
  - intros k' c. rewrite fan_w, next_w. cbn [w_next s_next]. destruct (kind_eqb k k') eqn:E.
    + apply kind_eqb_eq in E. subst k'. destruct (done _); destruct F3 as [-> _].
      * intros I. apply V2 in I. lia.
      * rewrite corrs_app, in_app_iff. intros [I|I]; [apply V2 in I; lia|]. unfold corrs in I. cbn [flat_map e_pend] in I. rewrite app_nil_r in I.
        unfold begin in I. cbn [fst] in I. rewrite begin_corrs in I. apply reqs_fst in I. lia.
    + intros I. assert (I' : In c (corrs (f_entries (fan_of k' s)))) by (destruct k'; exact I). apply V2 in I'. lia.
  - rewrite txs_w. exact V3.
Qed.

Lemma track_event_op k o ev : track_event k o ev -> is_start o = false. Proof. destruct 1; auto. Qed.

Lemma V_track k o ev s f ds : V s -> track_event k o ev -> fan_step (fan_of k s) o = Some (f, ds) -> V (w_fan k f s).
Proof.
  intros H T F. apply fan_after in F as (F1&F2&F3); [|apply (v_fan _ H)|eapply track_event_op; eauto]. destruct H as [V1 V2 V3]. split.
  - intros k'. rewrite fan_w. destruct (kind_eqb k k'); auto.
  - intros k' c. rewrite fan_w, next_w. destruct (kind_eqb k k') eqn:E; [|apply (V2 k')]. apply kind_eqb_eq in E. subst k'. rewrite F2. intros I. apply (V2 k).
    revert I. apply corrs_sub. intros e X. apply filter_In in X as [X _]. apply in_map_iff in X as (e0&<-&X). exists e0. split; auto.
    unfold after_op. cbn [e_pend]. rewrite track_corrs. auto.
  - rewrite txs_w. auto.
Qed.

Section Facts.
Variable known : list Z.
Notation reach := (reach known).
Notation takes_part := (takes_part known).

Lemma reach_V tr c : reach tr c -> V (fst (fst c)).
Proof.
  induction 1 as [|tr c e c' R IH U|tr s D tk l n R IH].
  - split; simpl; [destruct k; apply Finv_empty|destruct k; simpl; tauto|constructor].
  - destruct U; cbn [fst] in *; auto using V_upd, V_touch.
    + apply (V_same s); auto. cbn [s_txs w_txs]. rewrite map_app. apply nodup_snoc; [apply (v_nd _ IH)|apply find_none_g; auto].
    + eapply V_remove; eauto.
    + eapply (start_facts k fl _ cb); [|exact H1|exact H2]. apply V_upd. auto.
    + eapply V_track; eauto.
    + eapply V_remove; eauto.
    + eapply V_remove; eauto.
    + eapply V_remove; eauto.
    + eapply V_remove; [|eauto]. apply V_upd. auto.
    + apply (V_same (upd_tx (voted d x) s)); auto using V_upd. apply (v_nd _ (V_upd _ _ IH)).
    + apply (V_same (upd_tx (voted d x) s)); auto using V_upd.
      * destruct (c_reply (d_call d)), k; auto.
      * destruct (c_reply (d_call d)); auto.
      * destruct (c_reply (d_call d)); apply (v_nd _ (V_upd (voted d x) _ IH)).
    + apply (V_same s); auto. apply (v_nd _ IH).
    + apply (start_facts KCommit false _ (mk_c (c_reply (d_call d)) (c_origin (d_call d)) (c_dest (d_call d)) xa_ok) _ _ _ _ _ _ (V_upd _ _ IH) H2 H3).
    + apply (start_facts KRollback false _ (mk_c (c_reply (d_call d)) (c_origin (d_call d)) (c_dest (d_call d)) (code_of d)) _ _ _ _ _ _ (V_upd _ _ (V_upd _ _ IH)) H4 H5).
  - apply (V_same s); auto. apply (v_nd _ IH).
Qed.

(* ------------------------------------------------------------ what a request follows *)
Lemma reach_token tr c : reach tr c -> forall i, snd c = Req i -> exists pre, tr = pre ++ [Recv i].
Proof.
  induction 1 as [|tr c e c' R IH U|tr s D tk l n R IH]; intros j J.
  - discriminate.
  - destruct U; cbn [snd] in *; try discriminate; try (rewrite app_nil_r; auto; fail).
    + unfold tok_of in J. destruct (request_of i); [|discriminate]. injection J as <-. eauto.
    + unfold tok_of in J. destruct (request_of i); [|discriminate]. injection J as <-. eauto.
    + exfalso. eapply H; eauto.
  - apply IH. auto.
Qed.

(* ------------------------------------------------------------ the book *)
Lemma in_targets bs t r : In (t, r) (targets bs) <-> exists b, In b bs /\ b_trid b = t /\ In r (b_res b).
Proof.
  unfold targets. rewrite in_flat_map. split.
  - intros (b&B&I). apply in_map_iff in I as (r'&E&I). injection E as <- <-. eauto.
  - intros (b&B&<-&I). exists b. split; auto. apply in_map_iff. eauto.
Qed.

Definition book_ok (tr : list event) (g : Z) (o : option txn) : Prop :=
  match o with
  | None => forall b r, ~ takes_part tr g b r
  | Some x => (forall t r, In (t, r) (targets (x_branches x)) -> takes_part tr g (t_b t) r) /\
              (x_stage x = Involved -> forall b r, takes_part tr g b r -> exists t, In (t, r) (targets (x_branches x)) /\ t_b t = b)
  end.
Definition Book (tr : list event) (s : tm) : Prop := forall g, book_ok tr g (find_tx g s).

(* events that involve nobody and forget nobody *)
Definition neutral (e : event) : bool :=
  match e with
  | Act (Removed _) | Recv (ICommit _ _ _ _) | Recv (IRollback _ _ _ _) | Recv (IInvolved _ _ _ _ _) | Recv (IExtInvolved _ _) => false
  | _ => true
  end.
Lemma note_neutral b e : neutral e = true -> k_inv (note known b e) = k_inv b.
Proof. destruct e as [[]|[]]; intros H; try discriminate; auto. Qed.
Lemma parts_neutral e tr g b r : forallb neutral e = true -> (takes_part (tr ++ e) g b r <-> takes_part tr g b r).
Proof.
  unfold TmSpec.takes_part. rewrite notes_app. generalize (notes known tr). induction e as [|x e IH]; intros bk H; simpl; [tauto|].
  simpl in H. apply andb_true_iff in H as [H1 H2]. rewrite IH by auto. rewrite note_neutral by auto. tauto.
Qed.

Lemma book_neutral tr e g o : forallb neutral e = true -> book_ok tr g o -> book_ok (tr ++ e) g o.
Proof.
  intros N. destruct o as [x|]; simpl.
  - intros [B1 B2]. split.
    + intros t r I. apply parts_neutral; auto.
    + intros S b r T. apply parts_neutral in T; auto.
  - intros B b r T. apply parts_neutral in T; auto. eapply B; eauto.
Qed.

Lemma Book_neutral tr e s : forallb neutral e = true -> Book tr s -> Book (tr ++ e) s.
Proof. intros N B g. apply book_neutral; auto. Qed.

Lemma neutral_asked k fl ts : forall c, forallb neutral (map Act (asked k fl c ts)) = true.
Proof. induction ts as [|[t r] ts IH]; intros c; simpl; auto. Qed.

Lemma parts_removed tr g h b r : takes_part (tr ++ [Act (Removed g)]) h b r <-> takes_part tr h b r /\ h <> g.
Proof.
  unfold TmSpec.takes_part. rewrite notes_app. cbn [fold_left note k_inv]. rewrite filter_In. cbn [fst].
  destruct (Z.eqb_spec h g); simpl; intuition congruence.
Qed.

Lemma Book_remove tr g s s' a : V s -> Book tr s -> remove_tx g s = (s', a) -> Book (tr ++ map Act a) s'.
Proof.
  intros HV B R. apply remove_spec in R as (_&R2&_&_&_&_&_&->); [|apply (v_nd _ HV)]. intros h. rewrite R2.
  destruct (find_tx g s) as [x|] eqn:F; cbn [map].
  - destruct (Z.eqb_spec g h) as [<-|NE].
    + intros b r T. apply parts_removed in T. tauto.
    + specialize (B h). destruct (find_tx h s) as [y|]; simpl in *.
      * destruct B as [B1 B2]. split.
        -- intros t r I. apply parts_removed. auto.
        -- intros S b r T. apply parts_removed in T. apply B2; tauto.
      * intros b r T. apply parts_removed in T. eapply B. apply T.
  - rewrite app_nil_r. destruct (Z.eqb_spec g h) as [<-|NE]; auto. specialize (B g). rewrite F in B. exact B.
Qed.

Lemma book_less tr g x x' : x_stage x' <> Involved -> (forall t r, In (t, r) (targets (x_branches x')) -> exists t0, In (t0, r) (targets (x_branches x)) /\ t_b t0 = t_b t) ->
  book_ok tr g (Some x) -> book_ok tr g (Some x').
Proof.
  intros S I [B1 B2]. split; [|tauto]. intros t r J. destruct (I t r J) as (t0&J0&<-). auto.
Qed.

Lemma targets_voted d x t r : In (t, r) (targets (x_branches (voted d x))) -> In (t, r) (targets (x_branches x)).
Proof.
  intros H. apply in_targets in H as (b&B&<-&I). apply in_voted in B as (b0&B0&E&J). apply in_targets. exists b0. split; auto.
Qed.

Lemma stage_voted d x : x_stage (voted d x) <> Involved.
Proof. unfold voted. cbn [set_branches x_stage set_stage]. destruct (x_stage x); discriminate. Qed.

Lemma advance_neq st st0 : st <> Involved -> advance st st0 <> Involved.
Proof. destruct st, st0; simpl; try discriminate; tauto. Qed.

Lemma targets_purge bs t r : In (t, r) (targets (purge bs)) <-> In (t, r) (targets bs).
Proof.
  rewrite !in_targets. split; intros (b&B&E&I).
  - apply in_purge in B. eauto.
  - exists b. split; auto. unfold purge. apply partition_in. split; auto. destruct (b_res b); [destruct I|auto].
Qed.

Lemma append_unique_in rs : forall l r, In r (append_unique rs l) <-> In r l \/ In r rs.
Proof.
  unfold append_unique. induction rs as [|y rs IH]; intros l r; simpl; [tauto|]. rewrite IH. destruct (mem y l) eqn:E.
  - unfold mem in E. apply existsb_exists in E as (z&Z1&Z2). apply Z.eqb_eq in Z2. subst. intuition (subst; auto).
  - rewrite in_app_iff. simpl. tauto.
Qed.

Lemma same_xid_b a b : same_xid a b = true -> t_g a = t_g b /\ t_b a = t_b b.
Proof. unfold same_xid. rewrite andb_true_iff, !Z.eqb_eq. auto. Qed.

(* the targets after involving, up to the owner *)
Lemma targets_involved t rs bs tb r : (exists u, In (u, r) (targets (at_branch t (involve rs) bs)) /\ t_b u = tb /\ t_g u = t_g t) <->
  (exists u, In (u, r) (targets bs) /\ t_b u = tb /\ t_g u = t_g t) \/ (tb = t_b t /\ In r rs).
Proof.
  induction bs as [|b bs IH]; cbn [at_branch].
  - split.
    + intros (u&I&<-&_). apply in_targets in I as (b&[<-|[]]&<-&I). cbn [involve b_trid b_res] in *. apply append_unique_in in I as [[]|I]. auto.
    + intros [(u&I&_)|[-> I]].
      * apply in_targets in I as (b&[]&_).
      * exists t. split; auto. apply in_targets. eexists. split; [left; reflexivity|]. cbn [involve b_trid b_res]. split; auto. apply append_unique_in. auto.
  - destruct (same_xid (b_trid b) t) eqn:SX.
    + apply same_xid_b in SX as [SG SB]. split.
      * intros (u&I&<-&G). apply in_targets in I as (b0&[<-|B0]&<-&I).
        -- cbn [involve b_trid b_res] in *. apply append_unique_in in I as [I|I]; [|auto]. left. exists (b_trid b). split; auto. apply in_targets. exists b. simpl. auto.
        -- left. exists (b_trid b0). split; auto. apply in_targets. exists b0. simpl. auto.
      * intros [(u&I&<-&G)|[-> I]].
        -- apply in_targets in I as (b0&[<-|B0]&<-&I).
           ++ exists (b_trid b). split; auto. apply in_targets. eexists. split; [left; reflexivity|]. cbn [involve b_trid b_res]. split; auto. apply append_unique_in. auto.
           ++ exists (b_trid b0). split; auto. apply in_targets. exists b0. simpl. auto.
        -- exists (b_trid b). split; auto. apply in_targets. eexists. split; [left; reflexivity|]. cbn [involve b_trid b_res]. split; auto. apply append_unique_in. auto.
    + split.
      * intros (u&I&<-&G). apply in_targets in I as (b0&[<-|B0]&<-&I).
        -- left. exists (b_trid b). split; auto. apply in_targets. exists b. simpl. auto.
        -- assert (X : exists u, In (u, r) (targets (at_branch t (involve rs) bs)) /\ t_b u = t_b (b_trid b0) /\ t_g u = t_g t).
           { exists (b_trid b0). split; auto. apply in_targets. eauto. }
           apply IH in X as [(u&I1&I2&I3)|X]; auto. left. exists u. split; auto. apply in_targets in I1 as (b1&B1&E1&J1). apply in_targets. exists b1. simpl. auto.
      * intros [(u&I&<-&G)|X].
        -- apply in_targets in I as (b0&[<-|B0]&<-&I).
           ++ exists (b_trid b). split; auto. apply in_targets. exists b. simpl. auto.
           ++ assert (X : exists u, In (u, r) (targets (at_branch t (involve rs) bs)) /\ t_b u = t_b (b_trid b0) /\ t_g u = t_g t).
              { apply IH. left. exists (b_trid b0). split; auto. apply in_targets. eauto. }
              destruct X as (u&I1&I2&I3). exists u. split; auto. apply in_targets in I1 as (b1&B1&E1&J1). apply in_targets. exists b1. simpl. auto.
        -- assert (X' : exists u, In (u, r) (targets (at_branch t (involve rs) bs)) /\ t_b u = tb /\ t_g u = t_g t) by (apply IH; auto).
           destruct X' as (u&I1&I2&I3). exists u. split; auto. apply in_targets in I1 as (b1&B1&E1&J1). apply in_targets. exists b1. simpl. auto.
Qed.

Lemma branch_res_target t s r : In r (branch_res t s) -> exists x u, find_tx (t_g t) s = Some x /\ In (u, r) (targets (x_branches x)) /\ t_b u = t_b t /\ t_g u = t_g t.
Proof.
  unfold branch_res. destruct (find_tx (t_g t) s) as [x|] eqn:F; [|intros []]. unfold find_branch. destruct (find _ (x_branches x)) as [b|] eqn:FB; [|intros []].
  apply find_some in FB as [F1 F2]. apply same_xid_b in F2 as [F2 F3]. intros I. exists x, (b_trid b). split; auto. split; auto. apply in_targets. eauto.
Qed.

(* touching: [rs] are added to the transaction, [rs'] to the book *)
Lemma Book_touch tr tr' t rs rs' s : BM tr s -> Book tr s ->
  (forall g b r, takes_part tr' g b r <-> takes_part tr g b r \/ (g = t_g t /\ b = t_b t /\ In r rs')) ->
  (forall r, In r rs -> In r rs') -> (forall r, In r rs' -> In r rs \/ In r (branch_res t s)) -> Book tr' (touch t (involve rs) s).
Proof.
  intros HB B P S1 S2 g. rewrite find_touched. destruct (Z.eqb_spec (t_g t) g) as [<-|NE].
  - assert (GG : forall u r, In (u, r) (targets (at_branch t (involve rs) (br_of t (find_tx (t_g t) s)))) -> t_g u = t_g t).
    { intros u r I. apply in_targets in I as (b&I&<-&_). apply in_at_branch in I.
      assert (OLD : forall b0, In b0 (br_of t (find_tx (t_g t) s)) -> t_g (b_trid b0) = t_g t).
      { intros b0 I0. destruct (find_tx (t_g t) s) as [x|] eqn:F; simpl in I0.
        - rewrite <- (find_tx_g _ _ _ F). apply (HB x b0); auto. eapply in_txs_find; eauto.
        - destruct I0 as [<-|[]]. auto. }
      destruct I as [I|(b0&[I | ->]&->&_)]; cbn [involve b_trid]; auto. }
    specialize (B (t_g t)). split; cbn [x_branches x_stage].
    + intros u r I. apply P. assert (X : exists u0, In (u0, r) (targets (at_branch t (involve rs) (br_of t (find_tx (t_g t) s)))) /\ t_b u0 = t_b u /\ t_g u0 = t_g t) by eauto.
      apply targets_involved in X as [(u0&I0&E0&G0)|[E0 I0]]; [|auto].
      left. destruct (find_tx (t_g t) s) as [x|]; simpl in *.
      * rewrite <- E0. apply B. auto.
      * destruct I0.
    + intros ST b r T. apply P in T.
      assert (X : (exists u, In (u, r) (targets (br_of t (find_tx (t_g t) s))) /\ t_b u = b /\ t_g u = t_g t) \/ (b = t_b t /\ In r rs)).
      { destruct T as [T|(_&->&I)].
        - left. destruct (find_tx (t_g t) s) as [x|] eqn:F; simpl in *.
          + destruct B as [_ B2]. destruct (B2 ST b r T) as (u&I&E). exists u. split; auto. split; auto.
            apply in_targets in I as (b0&I0&<-&_). rewrite <- (find_tx_g _ _ _ F). apply (HB x b0); auto. eapply in_txs_find; eauto.
          + exfalso. eapply B; eauto.
        - apply S2 in I as [I|I]; [auto|]. left. apply branch_res_target in I as (x&u&F&I&E&G). exists u. rewrite F. simpl. auto. }
      apply targets_involved in X as (u&I&E&G). eauto.
  - specialize (B g). destruct (find_tx g s) as [x|]; simpl in *.
    + destruct B as [B1 B2]. split.
      * intros u r I. apply P. auto.
      * intros ST b r T. apply P in T as [T|(E&_)]; [auto|congruence].
    + intros b r T. apply P in T as [T|(E&_)]; [eapply B; eauto|congruence].
Qed.

Lemma Book_txs tr s s' : s_txs s' = s_txs s -> Book tr s -> Book tr s'.
Proof. intros E B g. rewrite (find_txs g s s' E). auto. Qed.

Lemma Book_upd tr s x y : find_tx (x_g x) s = Some y -> book_ok tr (x_g x) (Some x) -> Book tr s -> Book tr (upd_tx x s).
Proof. intros F H B g. rewrite (find_upd x y) by auto. destruct (Z.eqb_spec (x_g x) g) as [<-|]; auto. Qed.

Lemma neutral_cons x tr (s : tm) : neutral x = true -> Book tr s -> Book (tr ++ [x]) s.
Proof. intros. apply Book_neutral; auto. simpl. rewrite H. auto. Qed.

Lemma app_cons {A} (tr : list A) x l : tr ++ x :: l = (tr ++ [x]) ++ l.
Proof. rewrite <- app_assoc. auto. Qed.

Lemma book_stage tr g st x : st <> Involved -> book_ok tr g (Some x) -> book_ok tr g (Some (set_stage st x)).
Proof. intros N. apply book_less; [apply advance_neq; auto|]. cbn [set_stage x_branches]. eauto. Qed.

Lemma book_voted tr g d x : book_ok tr g (Some x) -> book_ok tr g (Some (voted d x)).
Proof. apply book_less; [apply stage_voted|]. intros t r I. exists t. split; auto. eapply targets_voted; eauto. Qed.

Lemma starting_stage tr x k fl st cb tk : starting tr x k fl st cb tk -> st <> Involved.
Proof.
  intros [_ S]. destruct tk as [|i|d]; [| |destruct S].
  - destruct S as (t&pid&_&_&_&->&_). discriminate.
  - destruct i; try (destruct S; fail).
    + destruct S as (_&_&[(_&_&->&_)|(_&_&->&_)]); discriminate.
    + destruct S as (_&_&_&->); discriminate.
    + destruct S as (_&_&_&_&->); discriminate.
    + destruct S as (_&_&[(_&_&_&->)|(_&_&_&->)]); discriminate.
    + destruct S as (_&_&_&->&_); discriminate.
Qed.

Lemma reach_Book tr c : reach tr c -> Book tr (fst (fst c)).
Proof.
  induction 1 as [|tr c e c' R IH U|tr s D tk l n R IH].
  - intros g b r []. 
  - pose proof (reach_BM _ _ _ R) as HB. pose proof (reach_V _ _ R) as HV.
    destruct U; cbn [fst] in *.
    + apply Book_neutral; auto. destruct i; try discriminate; auto.
    + destruct H as (MI&rs'&K1&K2&K3&_). apply (Book_touch tr _ t rs rs'); auto.
      intros g b r. unfold TmSpec.takes_part. rewrite notes_app. cbn [fold_left]. rewrite K1, in_app_iff. rewrite in_map_iff. split.
      * intros [I|(y&E&I)]; auto. injection E as <- <- <-. auto.
      * intros [I|(-> & -> & I)]; eauto.
    + rewrite app_nil_r. apply (Book_touch tr _ t [] []); auto. intros g b r. split; auto. intros [X|(_&_&[])]; auto.
    + rewrite app_nil_r. apply (Book_upd _ _ (set_branches (purge (x_branches x)) x) x); auto. specialize (IH (x_g x)). rewrite H0 in IH.
      destruct IH as [B1 B2]. cbn [set_branches x_g x_branches x_stage] in *. split; cbn [set_branches x_branches x_stage].
      * intros t r I. apply (proj1 (targets_purge _ _ _)) in I. exact (B1 t r I).
      * intros ST b r T. destruct (B2 ST b r T) as (t&I&E). exists t. split; auto. apply targets_purge. auto.
    + rewrite app_nil_r. intros g. rewrite find_snoc. specialize (IH g). destruct (find_tx g s) as [x|] eqn:F; auto. cbn [x_g].
      destruct (Z.eqb_spec (t_g t) g); auto. simpl. split.
      * intros u r [].
      * intros _ b r T. exfalso. eapply IH; eauto.
    + apply Book_neutral; auto. destruct a; try discriminate; auto.
    + apply Book_neutral; auto.
    + rewrite app_cons. eapply Book_remove; eauto. apply Book_neutral; auto.
    + rewrite ask_spec in H1. injection H1 as <- <- <-. apply Book_neutral; [apply neutral_asked|].
      apply (Book_txs _ (upd_tx (set_stage st x) s)); [rewrite txs_w; auto|]. pose proof (find_tx_g _ _ _ H0) as G.
      apply (Book_upd _ _ _ x); cbn [set_stage x_g]; auto; [rewrite G; auto|]. apply book_stage; [eapply starting_stage; eauto|].
      specialize (IH (x_g x)). rewrite G, H0 in IH. rewrite G. auto.
    + apply (Book_txs _ s); [apply txs_w|]. apply Book_neutral; auto. destruct H; auto.
    + rewrite app_cons. eapply Book_remove; eauto. apply Book_neutral; auto.
    + rewrite app_cons. eapply Book_remove; eauto. apply Book_neutral; auto.
    + eapply Book_remove; eauto.
    + rewrite app_nil_r. auto.
    + rewrite app_nil_r. auto.
    + rewrite app_cons. eapply Book_remove; [apply V_upd; exact HV| |eauto]. pose proof (find_tx_g _ _ _ H0) as G.
      apply (Book_upd _ _ _ x); [change (x_g (voted d x)) with (x_g x); rewrite G; auto| |apply Book_neutral; auto].
      apply book_voted. apply book_neutral; auto. specialize (IH (x_g x)). rewrite G, H0 in IH. change (x_g (voted d x)) with (x_g x). rewrite G. auto.
    + apply Book_neutral; auto. apply (Book_txs _ (upd_tx (voted d x) s)); auto. pose proof (find_tx_g _ _ _ H0) as G.
      apply (Book_upd _ _ _ x); auto; change (x_g (voted d x)) with (x_g x); [rewrite G; auto|]. apply book_voted. specialize (IH (x_g x)). rewrite G, H0 in IH. rewrite G. auto.
    + apply Book_neutral; auto. apply (Book_txs _ (upd_tx (voted d x) s)); [destruct (c_reply (d_call d)); auto|]. pose proof (find_tx_g _ _ _ H0) as G.
      apply (Book_upd _ _ _ x); auto; change (x_g (voted d x)) with (x_g x); [rewrite G; auto|]. apply book_voted. specialize (IH (x_g x)). rewrite G, H0 in IH. rewrite G. auto.
    + apply (Book_txs _ s); auto. apply Book_neutral; auto. simpl. clear. induction (s_replies s); simpl; auto.
    + rewrite ask_spec in H2. injection H2 as <- <- <-. apply Book_neutral; [apply neutral_asked|].
      apply (Book_txs _ (upd_tx (set_stage Commit x) s)); auto. pose proof (find_tx_g _ _ _ H) as G.
      apply (Book_upd _ _ _ x); cbn [set_stage x_g]; auto; [rewrite G; auto|]. apply book_stage; [discriminate|].
      specialize (IH (x_g x)). rewrite G, H in IH. rewrite G. auto.
    + apply Book_neutral; auto. pose proof (find_tx_g _ _ _ H0) as G.
      apply (Book_upd _ _ _ x); auto; change (x_g (voted d x)) with (x_g x); [rewrite G; auto|]. apply book_voted. specialize (IH (x_g x)). rewrite G, H0 in IH. rewrite G. auto.
    + rewrite ask_spec in H4. injection H4 as <- <- <-. apply Book_neutral; [apply neutral_asked|].
      apply (Book_txs _ (upd_tx (set_stage Rollback (voted d x)) (upd_tx (voted d x) s))); auto. pose proof (find_tx_g _ _ _ H0) as G.
      assert (BV : book_ok tr (x_g x) (Some (voted d x))) by (apply book_voted; specialize (IH (x_g x)); rewrite G, H0 in IH; rewrite G; auto).
      assert (FV : find_tx (x_g x) (upd_tx (voted d x) s) = Some (voted d x)) by (rewrite (find_upd (voted d x) x); change (x_g (voted d x)) with (x_g x); [rewrite Z.eqb_refl; auto|rewrite G; auto]).
      apply (Book_upd _ _ _ (voted d x)); auto.
      * apply book_stage; [discriminate|]. exact BV.
      * apply (Book_upd _ _ _ x); auto. change (x_g (voted d x)) with (x_g x). rewrite G. auto.
  - apply (Book_txs _ s); auto.
Qed.

End Facts.
