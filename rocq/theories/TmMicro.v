(* The handlers of the transaction manager as sequences of small steps: proof device, not a model. *)
From Coq Require Import ZArith List Bool Lia Permutation.
From Verif Require Import CodesModel FanModel TmModel TmSpec.
From Verif Require GroupModel GroupProofs.
Import ListNotations.
Local Open Scope Z_scope.

Notation firing := (fired vote call).
Notation partition_pure := GroupModel.partition_pure.

(* callbacks that are to be run *)
Record todo := mk_todo { td_p : list firing; td_c : list firing; td_r : list firing }.
Definition D0 := mk_todo [] [] [].
Definition d_of (k : kind) (D : todo) := match k with KPrepare => td_p D | KCommit => td_c D | KRollback => td_r D end.
Definition w_d (k : kind) l (D : todo) :=
  match k with KPrepare => mk_todo l (td_c D) (td_r D) | KCommit => mk_todo (td_p D) l (td_r D) | KRollback => mk_todo (td_p D) (td_c D) l end.
Definition fan_of (k : kind) (s : tm) := match k with KPrepare => s_p s | KCommit => s_c s | KRollback => s_r s end.
Definition w_fan (k : kind) f (s : tm) := match k with KPrepare => w_p f s | KCommit => w_c f s | KRollback => w_r f s end.

(* what is being done: nothing, a request, or the second half of a vote that passed *)
Inductive token := Idle | Req (i : input) | Decided (d : firing).
Definition cfg := (tm * todo * token)%type.

(* inputs that change nothing when they are received *)
Definition passive (i : input) : bool :=
  match i with
  | ICommit _ _ _ _ | IRollback _ _ _ _ | IInvolved _ _ _ _ _ | IExtInvolved _ _ | IReply _ _ _ => false
  | _ => true
  end.
Definition tok_of (i : input) : token := match request_of i with Some _ => Req i | None => Idle end.

(* which resources an input adds *)
Definition enrolls (known : list Z) (tr : list event) (i : input) (t : trid) (rs : list Z) (s : tm) : Prop :=
  mentions i t /\
  exists rs', k_inv (note known (notes known tr) (Recv i)) = k_inv (notes known tr) ++ map (fun r => (t_g t, t_b t, r)) rs' /\
              (forall r, In r rs -> In r rs') /\ (forall r, In r rs' -> In r rs \/ In r (branch_res t s)) /\
              (rs' <> [] -> involves (t_g t) i).

Definition mentioned (tr : list event) (t : trid) : Prop := exists i, In (Recv i) tr /\ mentions i t.

(* who may start what *)
Definition starting (tr : list event) (x : txn) (k : kind) (fl : bool) (st : stage) (cb : call) (tk : token) : Prop :=
  c_code cb = read_only /\
  match tk with
  | Req (ICommit p corr t rs) =>
      cb = mk_c UserCommit t (user_dest p corr) read_only /\ x_stage x = Involved /\
      ((k = KCommit /\ fl = true /\ st = Commit /\ length (targets (x_branches x)) = 1%nat) \/
       (k = KPrepare /\ fl = false /\ st = Prepare /\ (1 < length (targets (x_branches x)))%nat))
  | Req (IRollback p corr t rs) => cb = mk_c UserRollback t (user_dest p corr) read_only /\ k = KRollback /\ fl = false /\ st = Rollback
  | Req (IExtPrepare p corr t r) =>
      cb = mk_c ResPrepare t (mk_d p corr r) read_only /\ x_stage x = Involved /\ k = KPrepare /\ fl = false /\ st = Prepare
  | Req (IExtCommit p corr t r) =>
      cb = mk_c ResCommit t (mk_d p corr r) read_only /\ last_input tr None = Some (IExtCommit p corr t r) /\
      ((x_stage x = PostPrepare /\ k = KCommit /\ fl = false /\ st = Commit) \/
       (x_stage x = Involved /\ k = KPrepare /\ fl = false /\ st = Prepare))
  | Req (IExtRollback p corr t r) =>
      cb = mk_c ResRollback t (mk_d p corr r) read_only /\ k = KRollback /\ fl = false /\ st = Rollback /\
      (x_stage x = Involved \/ x_stage x = PostPrepare)
  | Idle => (* the owner has died *)
      exists t pid, cb = mk_c UserRollback t (user_dest self 0) read_only /\ k = KRollback /\ fl = false /\ st = Rollback /\
                    mentioned tr t /\ t_own t = pid /\ In (Recv (IExit pid)) tr
  | _ => False
  end.

(* immediate replies *)
Definition refusal (i : input) (a : answer) : Prop :=
  match i with
  | ICommit p corr t rs => a = mk_a p corr UserCommit t (Some Commit) (Tx tx_protocol)
  | IExtPrepare p corr t r => a = mk_a p corr ResPrepare t None (Xa read_only)
  | IExtCommit p corr t r => a = mk_a p corr ResCommit t None (Xa read_only)
  | IExtRollback p corr t r => a = mk_a p corr ResRollback t None (Xa read_only)
  | _ => False
  end.
Definition nothing_to_do (i : input) (g : Z) (a : answer) : Prop :=
  match i with
  | ICommit p corr t rs => g = t_g t /\ a = mk_a p corr UserCommit t (Some Commit) (Tx tx_ok)
  | IExtPrepare p corr t r => g = t_g t /\ a = mk_a p corr ResPrepare t None (Xa read_only)
  | _ => False
  end.

Definition origin_g (d : firing) : Z := t_g (c_origin (d_call d)).
Definition code_of (d : firing) : xa := accumulate KPrepare (votes d) (d_out d) read_only.
Definition active_of (d : firing) : list vote := fst (partition_pure (fun v => negb (vote_is read_only v)) (votes d)).
Definition ro_of (d : firing) : list vote := snd (partition_pure (fun v => negb (vote_is read_only v)) (votes d)).
Definition voted (d : firing) (x : txn) : txn := set_branches (purge_votes (ro_of d) (x_branches x)) (set_stage PostPrepare x).

Inductive track_event : kind -> fop vote call -> event -> Prop :=
| te_reply k c v : track_event k (Reply c v) (Recv (IReply k c v))
| te_fail k id : track_event k (Fail id) (Act (GaveUp k id)).

Definition quiet (a : action) : bool := match a with Tell _ _ _ | BranchIs _ _ _ => true | _ => false end.

Section Micro.
Variable known : list Z.

Inductive micro (tr : list event) : cfg -> list event -> cfg -> Prop :=
| u_recv i s : passive i = true -> micro tr (s, D0, Idle) [Recv i] (s, D0, tok_of i)
| u_involve i t rs s : enrolls known tr i t rs s -> micro tr (s, D0, Idle) [Recv i] (touch t (involve rs) s, D0, tok_of i)
| u_touch t s D tk : mentioned tr t -> micro tr (s, D, tk) [] (touch t (involve []) s, D, tk)
| u_purge x s D tk : In x (s_txs s) -> find_tx (x_g x) s = Some x -> micro tr (s, D, tk) [] (upd_tx (set_branches (purge (x_branches x)) x) s, D, tk)
| u_new t s D tk : mentioned tr t -> find_tx (t_g t) s = None ->
    micro tr (s, D, tk) [] (w_txs (s_txs s ++ [mk_x (t_g t) [mk_b t []] Involved]) s, D, tk)
| u_say a s D : quiet a = true -> micro tr (s, D, Idle) [Act a] (s, D, Idle)
| u_refuse i a s D : refusal i a -> micro tr (s, D, Req i) [Act (Answer a)] (s, D, Idle)
| u_nothing i a x g s D s' a' : nothing_to_do i g a -> find_tx g s = Some x -> x_stage x = Involved -> targets (x_branches x) = [] ->
    remove_tx g s = (s', a') -> micro tr (s, D, Req i) (Act (Answer a) :: map Act a') (s', D, Idle)
| u_begin k fl st cb x s D tk s3 ps a f ds : starting tr x k fl st cb tk -> find_tx (t_g (c_origin cb)) s = Some x ->
    ask k fl (targets (x_branches x)) (upd_tx (set_stage st x) s) = (s3, ps, a) ->
    fan_start ps cb (fan_of k s3) = (f, ds) ->
    micro tr (s, D, tk) (map Act a) (w_fan k f s3, w_d k (ds ++ d_of k D) D, Idle)
| u_track k o ev s f ds : track_event k o ev -> fan_step (fan_of k s) o = Some (f, ds) ->
    micro tr (s, D0, Idle) [ev] (w_fan k f s, w_d k ds D0, Idle)
| u_committed d r s D s' a' : td_c D = d :: r -> remove_tx (origin_g d) s = (s', a') ->
    micro tr (s, D, Idle)
      (Act (Answer (create_reply (d_call d) Commit (accumulate KCommit (votes d) (d_out d) (c_code (d_call d))))) :: map Act a')
      (s', w_d KCommit r D, Idle)
| u_rolledback d r s D s' a' : td_r D = d :: r -> same_proc (d_proc (c_dest (d_call d))) self = false ->
    remove_tx (origin_g d) s = (s', a') ->
    micro tr (s, D, Idle)
      (Act (Answer (create_reply (d_call d) Rollback (accumulate KRollback (votes d) (d_out d) (c_code (d_call d))))) :: map Act a')
      (s', w_d KRollback r D, Idle)
| u_rolledback_self d r s D s' a' : td_r D = d :: r -> same_proc (d_proc (c_dest (d_call d))) self = true ->
    remove_tx (origin_g d) s = (s', a') -> micro tr (s, D, Idle) (map Act a') (s', w_d KRollback r D, Idle)
| u_rolledback_keep d r s D : td_r D = d :: r -> same_proc (d_proc (c_dest (d_call d))) self = true ->
    micro tr (s, D, Idle) [] (s, w_d KRollback r D, Idle)
| u_vote_lost d r s D : td_p D = d :: r -> find_tx (origin_g d) s = None -> micro tr (s, D, Idle) [] (s, w_d KPrepare r D, Idle)
| u_vote_readonly d r x s D s' a' : td_p D = d :: r -> find_tx (origin_g d) s = Some x -> code_of d = read_only ->
    remove_tx (origin_g d) (upd_tx (voted d x) s) = (s', a') ->
    micro tr (s, D, Idle) (Act (Answer (create_reply (d_call d) Commit (code_of d))) :: map Act a') (s', w_d KPrepare r D, Idle)
| u_vote_res_ok d r x s D l : td_p D = d :: r -> find_tx (origin_g d) s = Some x -> code_of d = xa_ok ->
    c_reply (d_call d) = ResPrepare -> insert_all (rows (voted d x)) (s_log s) = Some l ->
    micro tr (s, D, Idle) [Act (Logged (origin_g d) (rows (voted d x)))]
      (w_replies (s_replies s ++ [create_reply (d_call d) Prepare (code_of d)]) (w_log l (upd_tx (voted d x) s)), w_d KPrepare r D, Idle)
| u_vote_ok d r x s D l : td_p D = d :: r -> find_tx (origin_g d) s = Some x -> code_of d = xa_ok ->
    c_reply (d_call d) <> ResPrepare -> insert_all (rows (voted d x)) (s_log s) = Some l ->
    micro tr (s, D, Idle) [Act (Logged (origin_g d) (rows (voted d x)))]
      (match c_reply (d_call d) with
       | UserCommit => w_replies (s_replies s ++ [create_reply (d_call d) Prepare (code_of d)]) (w_log l (upd_tx (voted d x) s))
       | _ => w_log l (upd_tx (voted d x) s)
       end, w_d KPrepare r D, Decided d)
| u_persist s D tk : (forall i, tk <> Req i) -> micro tr (s, D, tk) (Act (Persisted (s_log s)) :: map (fun a => Act (Answer a)) (s_replies s)) (w_replies [] (w_disk (s_log s) s), D, tk)
| u_vote_commit d x s D s3 ps a f ds : find_tx (origin_g d) s = Some x -> c_reply (d_call d) <> ResPrepare -> code_of d = xa_ok ->
    ask KCommit false (map vote_target (active_of d)) (upd_tx (set_stage Commit x) s) = (s3, ps, a) ->
    fan_start ps (mk_c (c_reply (d_call d)) (c_origin (d_call d)) (c_dest (d_call d)) xa_ok) (s_c s3) = (f, ds) ->
    micro tr (s, D, Decided d) (map Act a) (w_c f s3, w_d KCommit (ds ++ td_c D) D, Idle)
| u_vote_res_bad d r x s D : td_p D = d :: r -> find_tx (origin_g d) s = Some x -> code_of d <> read_only -> code_of d <> xa_ok ->
    c_reply (d_call d) = ResPrepare ->
    micro tr (s, D, Idle) [Act (Answer (create_reply (d_call d) Prepare (code_of d)))] (upd_tx (voted d x) s, w_d KPrepare r D, Idle)
| u_vote_bad d r x s D s3 ps a f ds : td_p D = d :: r -> find_tx (origin_g d) s = Some x -> code_of d <> read_only -> code_of d <> xa_ok ->
    c_reply (d_call d) <> ResPrepare ->
    ask KRollback false (map vote_target (active_of d)) (upd_tx (set_stage Rollback (voted d x)) (upd_tx (voted d x) s)) = (s3, ps, a) ->
    fan_start ps (mk_c (c_reply (d_call d)) (c_origin (d_call d)) (c_dest (d_call d)) (code_of d)) (s_r s3) = (f, ds) ->
    micro tr (s, D, Idle) (map Act a) (w_r f s3, mk_todo r (td_c D) (ds ++ td_r D), Idle).

Inductive mrun : list event -> cfg -> list event -> cfg -> Prop :=
| m_nil tr c : mrun tr c [] c
| m_cons tr c e1 c1 e2 c2 : micro tr c e1 c1 -> mrun (tr ++ e1) c1 e2 c2 -> mrun tr c (e1 ++ e2) c2.

Lemma m_one tr c e c' : micro tr c e c' -> mrun tr c e c'.
Proof. intros H. rewrite <- (app_nil_r e). econstructor; [exact H|constructor]. Qed.

Lemma m_app tr c e1 c1 e2 c2 : mrun tr c e1 c1 -> mrun (tr ++ e1) c1 e2 c2 -> mrun tr c (e1 ++ e2) c2.
Proof.
  induction 1 as [|tr c e c1 e' c2' U R IH]; intros H; simpl.
  - rewrite app_nil_r in H. auto.
  - rewrite <- app_assoc. econstructor; [exact U|]. apply IH. rewrite <- app_assoc. exact H.
Qed.

(* ------------------------------------------------------------ the handlers are such sequences *)

Lemma xa_eqb_ro c : xa_eqb c read_only = true -> c = read_only.
Proof. unfold xa_eqb. destruct c; simpl; intros H; try discriminate; auto. Qed.
Lemma xa_eqb_ok c : xa_eqb c xa_ok = true -> c = xa_ok.
Proof. unfold xa_eqb. destruct c; simpl; intros H; try discriminate; auto. Qed.
Lemma xa_neq_ro c : xa_eqb c read_only = false -> c <> read_only.
Proof. intros H ->. discriminate. Qed.
Lemma xa_neq_ok c : xa_eqb c xa_ok = false -> c <> xa_ok.
Proof. intros H ->. discriminate. Qed.

Lemma run_commits ds : forall tr s D s' a r, td_c D = ds ++ r -> run_all on_commit ds s = (s', a) ->
  mrun tr (s, D, Idle) (map Act a) (s', w_d KCommit r D, Idle).
Proof.
  induction ds as [|d ds IH]; intros tr s D s' a r H R; simpl in R.
  - injection R as <- <-. simpl in H. rewrite <- H. destruct D. simpl. constructor.
  - destruct (on_commit d s) as [s1 a1] eqn:E1. destruct (run_all on_commit ds s1) as [s2 a2] eqn:E2. injection R as <- <-.
    unfold on_commit in E1. destruct (remove_tx (t_g (c_origin (d_call d))) s) as [s3 a3] eqn:RM. injection E1 as <- <-.
    rewrite map_app. eapply m_cons.
    + cbn [map]. eapply u_committed; eauto.
    + replace (w_d KCommit r D) with (w_d KCommit r (w_d KCommit (ds ++ r) D)) by (destruct D; auto). eapply IH; [reflexivity|eauto].
Qed.

Lemma run_rollbacks ds : forall tr s D s' a r, td_r D = ds ++ r -> run_all on_rollback ds s = (s', a) ->
  mrun tr (s, D, Idle) (map Act a) (s', w_d KRollback r D, Idle).
Proof.
  induction ds as [|d ds IH]; intros tr s D s' a r H R; simpl in R.
  - injection R as <- <-. simpl in H. rewrite <- H. destruct D. simpl. constructor.
  - destruct (on_rollback d s) as [s1 a1] eqn:E1. destruct (run_all on_rollback ds s1) as [s2 a2] eqn:E2. injection R as <- <-.
    rewrite map_app. replace (w_d KRollback r D) with (w_d KRollback r (w_d KRollback (ds ++ r) D)) by (destruct D; auto).
    eapply m_cons; [|eapply IH; [reflexivity|exact E2]].
    unfold on_rollback in E1. destruct (same_proc (d_proc (c_dest (d_call d))) self) eqn:SP.
    + destruct (is_ok _).
      * eapply u_rolledback_self; eauto.
      * injection E1 as <- <-. eapply u_rolledback_keep; eauto.
    + destruct (remove_tx (t_g (c_origin (d_call d))) s) as [s3 a3] eqn:RM. injection E1 as <- <-. cbn [map]. eapply u_rolledback; eauto.
Qed.

Lemma w_d_w_d k a b D : w_d k a (w_d k b D) = w_d k a D.
Proof. destruct k; auto. Qed.

(* set the stage, ask, start, and run the callbacks if there was nobody to ask *)
Lemma begun_commit tr x fl st cb tk s s3 ps a s4 a4 : starting tr x KCommit fl st cb tk -> find_tx (t_g (c_origin cb)) s = Some x ->
  ask KCommit fl (targets (x_branches x)) (upd_tx (set_stage st x) s) = (s3, ps, a) -> start_commit ps cb s3 = (s4, a4) ->
  mrun tr (s, D0, tk) (map Act (a ++ a4)) (s4, D0, Idle).
Proof.
  intros S F A C. unfold start_commit in C. destruct (fan_start ps cb (s_c s3)) as [f ds] eqn:FS.
  rewrite map_app. eapply m_cons; [eapply u_begin; eauto|]. simpl. rewrite app_nil_r.
  apply (run_commits ds _ _ (mk_todo [] ds []) _ _ []); simpl; auto. rewrite app_nil_r. auto.
Qed.

Lemma begun_rollback tr x fl st cb tk s s3 ps a s4 a4 : starting tr x KRollback fl st cb tk -> find_tx (t_g (c_origin cb)) s = Some x ->
  ask KRollback fl (targets (x_branches x)) (upd_tx (set_stage st x) s) = (s3, ps, a) -> start_rollback ps cb s3 = (s4, a4) ->
  mrun tr (s, D0, tk) (map Act (a ++ a4)) (s4, D0, Idle).
Proof.
  intros S F A C. unfold start_rollback in C. destruct (fan_start ps cb (s_r s3)) as [f ds] eqn:FS.
  rewrite map_app. eapply m_cons; [eapply u_begin; eauto|]. simpl. rewrite app_nil_r.
  apply (run_rollbacks ds _ _ (mk_todo [] [] ds) _ _ []); simpl; auto. rewrite app_nil_r. auto.
Qed.

Lemma persist_reply_micro tr a s D tk s' acts0 : (forall i, tk <> Req i) -> persist_reply a s = (s', acts0) ->
  mrun tr (w_replies (s_replies s ++ [a]) s, D, tk) (map Act acts0) (s', D, tk).
Proof.
  intros NR. unfold persist_reply. destruct (Nat.leb batch _).
  - unfold persist. intros H. injection H as <- <-. cbn [map]. rewrite map_map. apply m_one.
    exact (u_persist tr (w_replies (s_replies s ++ [a]) s) D tk NR).
  - intros H. injection H as <- <-. constructor.
Qed.

Lemma find_tx_upd x y s : find_tx (x_g x) s = Some y -> find_tx (x_g x) (upd_tx x s) = Some x.
Proof.
  unfold find_tx, upd_tx, w_txs. cbn [s_txs]. induction (s_txs s) as [|z l IH]; simpl; [discriminate|].
  destruct (Z.eqb_spec (x_g z) (x_g x)); simpl; [rewrite Z.eqb_refl; auto|]. destruct (Z.eqb_spec (x_g z) (x_g x)); [contradiction|auto].
Qed.

Lemma find_tx_g g s x : find_tx g s = Some x -> x_g x = g.
Proof. unfold find_tx. intros H. apply find_some in H as [_ H]. apply Z.eqb_eq in H. auto. Qed.

Lemma put_tx_twice x y l : x_g x = x_g y -> put_tx y (put_tx x l) = put_tx y l.
Proof.
  intros E. induction l as [|z l IH]; simpl; auto. destruct (Z.eqb_spec (x_g z) (x_g x)); simpl.
  - rewrite E, Z.eqb_refl. destruct (Z.eqb_spec (x_g z) (x_g y)); [auto|congruence].
  - destruct (Z.eqb_spec (x_g z) (x_g y)); [congruence|]. rewrite IH. auto.
Qed.

Lemma run_votes ds : forall tr s D s' a r, td_p D = ds ++ r -> td_c D = [] -> td_r D = [] -> run_prepares ds s = Some (s', a) ->
  mrun tr (s, D, Idle) (map Act a) (s', w_d KPrepare r D, Idle).
Proof.
  induction ds as [|d ds IH]; intros tr s D s' a r H HC HR R; simpl in R.
  - injection R as <- <-. simpl in H. rewrite <- H. destruct D. simpl. constructor.
  - destruct (on_prepare d s) as [[s1 a1]|] eqn:E1; [|discriminate].
    destruct (run_prepares ds s1) as [[s2 a2]|] eqn:E2; [|discriminate]. injection R as <- <-.
    rewrite map_app. destruct D as [dp dc dr]. simpl in H, HC, HR. subst dp dc dr.
    apply (m_app _ _ _ (s1, mk_todo (ds ++ r) [] [], Idle)); [|apply (IH _ _ (mk_todo (ds ++ r) [] [])); auto].
    clear IH E2. unfold on_prepare in E1. destruct (find_tx (t_g (c_origin (d_call d))) s) as [x|] eqn:F.
    2:{ injection E1 as <- <-. apply m_one. apply (u_vote_lost tr d (ds ++ r) s (mk_todo ((d :: ds) ++ r) [] [])); auto. }
    fold (code_of d) in E1.
    destruct (partition_pure (fun v => negb (vote_is read_only v)) (votes d)) as [active ro] eqn:PT.
    assert (AE : active_of d = active) by (unfold active_of; rewrite PT; auto).
    assert (RE : ro_of d = ro) by (unfold ro_of; rewrite PT; auto).
    rewrite <- RE in E1. fold (voted d x) in E1.
    destruct (xa_eqb (code_of d) read_only) eqn:CR.
    + apply xa_eqb_ro in CR. destruct (remove_tx (t_g (c_origin (d_call d))) (upd_tx (voted d x) s)) as [s3 a3] eqn:RM. injection E1 as <- <-.
      cbn [map]. apply m_one. apply (u_vote_readonly tr d (ds ++ r) x s (mk_todo ((d :: ds) ++ r) [] [])); auto.
    + apply xa_neq_ro in CR. destruct (xa_eqb (code_of d) xa_ok) eqn:CO.
      * apply xa_eqb_ok in CO. cbn [s_log upd_tx w_txs] in E1. destruct (insert_all (rows (voted d x)) (s_log s)) as [l|] eqn:IA; [|discriminate].
        assert (CASE : c_reply (d_call d) = ResPrepare \/ c_reply (d_call d) <> ResPrepare) by (destruct (c_reply (d_call d)); auto; right; discriminate).
        destruct CASE as [CK|CK].
        -- rewrite CK in E1. destruct (persist_reply (create_reply (d_call d) Prepare (code_of d)) (w_log l (upd_tx (voted d x) s))) as [s3 a3] eqn:PR.
           injection E1 as <- <-. cbn [map]. change (Act (Logged (t_g (c_origin (d_call d))) (rows (voted d x))) :: map Act a3) with ([Act (Logged (origin_g d) (rows (voted d x)))] ++ map Act a3).
           eapply m_cons; [apply (u_vote_res_ok tr d (ds ++ r) x s (mk_todo ((d :: ds) ++ r) [] []) l); auto|].
           refine (persist_reply_micro _ _ _ _ _ _ _ _ PR); discriminate.
        -- assert (E1' : exists s3 a3 s4 s5 ps a5 a6, 
             (match c_reply (d_call d) with UserCommit => persist_reply (create_reply (d_call d) Prepare (code_of d)) (w_log l (upd_tx (voted d x) s)) | _ => (w_log l (upd_tx (voted d x) s), []) end) = (s3, a3) /\
             s4 = upd_tx (set_stage Commit (voted d x)) s3 /\ ask KCommit false (map vote_target active) s4 = (s5, ps, a5) /\
             start_commit ps (mk_c (c_reply (d_call d)) (c_origin (d_call d)) (c_dest (d_call d)) (code_of d)) s5 = (s1, a6) /\
             a1 = Logged (origin_g d) (rows (voted d x)) :: a3 ++ a5 ++ a6).
           { set (s2' := w_log l (upd_tx (voted d x) s)) in *.
             destruct (c_reply (d_call d)); try congruence;
             [destruct (persist_reply (create_reply (d_call d) Prepare (code_of d)) s2') as [s3 a3] eqn:X1
             |pose (s3 := s2'); pose (a3 := @nil action); assert (X1 : (s2', @nil action) = (s3, a3)) by reflexivity; change s2' with s3 in E1
             |pose (s3 := s2'); pose (a3 := @nil action); assert (X1 : (s2', @nil action) = (s3, a3)) by reflexivity; change s2' with s3 in E1
             |pose (s3 := s2'); pose (a3 := @nil action); assert (X1 : (s2', @nil action) = (s3, a3)) by reflexivity; change s2' with s3 in E1];
             (destruct (ask KCommit false (map vote_target active) (upd_tx (set_stage Commit (voted d x)) s3)) as [[s5 ps] a5] eqn:X2;
             destruct (start_commit ps _ s5) as [s6 a6] eqn:X3; injection E1 as <- <-;
             exists s3, a3, (upd_tx (set_stage Commit (voted d x)) s3), s5, ps, a5, a6; auto 10). }
           clear E1. destruct E1' as (s3&a3&s4&s5&ps&a5&a6&X1&->&X2&X3&->). cbn [map].
           change (Act (Logged (origin_g d) (rows (voted d x))) :: map Act (a3 ++ a5 ++ a6)) with ([Act (Logged (origin_g d) (rows (voted d x)))] ++ map Act (a3 ++ a5 ++ a6)).
           eapply m_cons; [apply (u_vote_ok tr d (ds ++ r) x s (mk_todo ((d :: ds) ++ r) [] []) l); auto|].
           rewrite map_app. unfold w_d. cbn [td_c td_r].
           assert (F3 : find_tx (origin_g d) s3 = Some (voted d x)).
           { assert (F0 : find_tx (origin_g d) (upd_tx (voted d x) s) = Some (voted d x)).
             { pose proof (find_tx_g _ _ _ F) as G. unfold origin_g. rewrite <- G. apply (find_tx_upd (voted d x) x). simpl. rewrite G. auto. }
             destruct (c_reply (d_call d)); try (injection X1 as <- _; exact F0).
             unfold persist_reply in X1. destruct (Nat.leb batch _); injection X1 as <- _; exact F0. }
           eapply m_app.
           ++ instantiate (1 := (s3, mk_todo (ds ++ r) [] [], Decided d)).
              destruct (c_reply (d_call d)); try (injection X1 as <- <-; constructor). refine (persist_reply_micro _ _ _ _ _ _ _ _ X1); discriminate.
           ++ unfold start_commit in X3. destruct (fan_start ps _ (s_c s5)) as [f fs] eqn:FS. rewrite CO in FS. rewrite map_app.
              eapply m_cons; [eapply u_vote_commit; [exact F3|auto|auto|rewrite AE; exact X2|exact FS]|].
              simpl. rewrite app_nil_r. apply (run_commits fs _ _ (mk_todo (ds ++ r) fs []) _ _ []); auto. simpl. rewrite app_nil_r. auto.
      * apply xa_neq_ok in CO.
        assert (CASE : c_reply (d_call d) = ResPrepare \/ c_reply (d_call d) <> ResPrepare) by (destruct (c_reply (d_call d)); auto; right; discriminate).
        destruct CASE as [CK|CK].
        -- rewrite CK in E1. injection E1 as <- <-. cbn [map]. apply m_one.
           apply (u_vote_res_bad tr d (ds ++ r) x s (mk_todo ((d :: ds) ++ r) [] [])); auto.
        -- assert (E1' : exists s5 ps a5 a6, ask KRollback false (map vote_target active) (upd_tx (set_stage Rollback (voted d x)) (upd_tx (voted d x) s)) = (s5, ps, a5) /\
             start_rollback ps (mk_c (c_reply (d_call d)) (c_origin (d_call d)) (c_dest (d_call d)) (code_of d)) s5 = (s1, a6) /\ a1 = a5 ++ a6).
           { destruct (c_reply (d_call d)); try congruence;
             destruct (ask KRollback false (map vote_target active) _) as [[s5 ps] a5] eqn:X2;
             destruct (start_rollback ps _ s5) as [s6 a6] eqn:X3; injection E1 as <- <-; exists s5, ps, a5, a6; auto. }
           clear E1. destruct E1' as (s5&ps&a5&a6&X2&X3&->). rewrite map_app.
           unfold start_rollback in X3. destruct (fan_start ps _ (s_r s5)) as [f fs] eqn:FS.
           eapply m_cons; [eapply (u_vote_bad tr d (ds ++ r) x s (mk_todo ((d :: ds) ++ r) [] [])); eauto; rewrite AE; exact X2|].
           simpl. rewrite app_nil_r. apply (run_rollbacks fs _ _ (mk_todo (ds ++ r) [] fs) _ _ []); auto. simpl. rewrite app_nil_r. auto.
Qed.

Lemma begun_prepare tr x cb tk s s3 ps a s4 a4 : starting tr x KPrepare false Prepare cb tk -> find_tx (t_g (c_origin cb)) s = Some x ->
  ask KPrepare false (targets (x_branches x)) (upd_tx (set_stage Prepare x) s) = (s3, ps, a) -> after a (start_prepare ps cb s3) = Some (s4, a4) ->
  mrun tr (s, D0, tk) (map Act a4) (s4, D0, Idle).
Proof.
  intros S F A C. unfold start_prepare in C. destruct (fan_start ps cb (s_p s3)) as [f ds] eqn:FS.
  destruct (run_prepares ds (w_p f s3)) as [[s5 a5]|] eqn:R; [|discriminate]. injection C as <- <-.
  rewrite map_app. eapply m_cons; [eapply u_begin; eauto|]. simpl. rewrite app_nil_r.
  apply (run_votes ds _ _ (mk_todo ds [] []) _ _ []); simpl; auto. rewrite app_nil_r. auto.
Qed.

Lemma begin_micro tr x k fl st cb tk s s3 ps a f ds D : starting tr x k fl st cb tk -> find_tx (t_g (c_origin cb)) s = Some x ->
  ask k fl (targets (x_branches x)) (upd_tx (set_stage st x) s) = (s3, ps, a) -> fan_start ps cb (fan_of k s3) = (f, ds) ->
  micro tr (s, D, tk) (map Act a) (w_fan k f s3, w_d k (ds ++ d_of k D) D, Idle).
Proof. intros. eapply u_begin; eauto. Qed.

(* ------------------------------------------------------------ branch::involved *)
Lemma find_touch t f s : exists x, find_tx (t_g t) (touch t f s) = Some x.
Proof.
  unfold touch. destruct (find_tx (t_g t) s) as [x|] eqn:F.
  - pose proof (find_tx_g _ _ _ F) as G. eexists. rewrite <- G. apply (find_tx_upd (mk_x (x_g x) (at_branch t f (x_branches x)) (x_stage x)) x).
    simpl. rewrite G. auto.
  - unfold find_tx in *. cbn [s_txs w_txs]. induction (s_txs s) as [|z l IH]; cbn [app find] in *.
    + cbn [x_g]. rewrite Z.eqb_refl. eauto.
    + destruct (x_g z =? t_g t); [discriminate|]. auto.
Qed.

Lemma involved_spec t rs s s1 x : involved t rs s = (s1, x) ->
  exists x0, find_tx (t_g t) (touch t (involve rs) s) = Some x0 /\ x = set_branches (purge (x_branches x0)) x0 /\
             s1 = upd_tx x (touch t (involve rs) s) /\ find_tx (t_g t) s1 = Some x.
Proof.
  unfold involved. destruct (find_touch t (involve rs) s) as (x0&F). rewrite F. intros H. injection H as <- <-.
  exists x0. split; auto. split; auto. split; auto. pose proof (find_tx_g _ _ _ F) as G. rewrite <- G.
  apply (find_tx_upd (set_branches (purge (x_branches x0)) x0) x0). simpl. rewrite G. auto.
Qed.

Lemma in_txs_find g s x : find_tx g s = Some x -> In x (s_txs s).
Proof. unfold find_tx. intros H. apply find_some in H. tauto. Qed.

Lemma involved_micro tr t rs s s1 x D tk : involved t rs s = (s1, x) -> mrun tr (touch t (involve rs) s, D, tk) [] (s1, D, tk).
Proof.
  intros H. apply involved_spec in H as (x0&F&->&->&_). apply m_one. apply u_purge.
  - eapply in_txs_find; eauto.
  - rewrite (find_tx_g _ _ _ F). auto.
Qed.

Lemma commit_micro tr p corr t rs s s' a : enrolls known tr (ICommit p corr t rs) t rs s -> commit_request p corr t rs s = Some (s', a) ->
  mrun tr (s, D0, Idle) (Recv (ICommit p corr t rs) :: map Act a) (s', D0, Idle).
Proof.
  intros EN H. unfold commit_request in H. destruct (involved t rs s) as [s1 x] eqn:I.
  change (Recv (ICommit p corr t rs) :: map Act a) with ([Recv (ICommit p corr t rs)] ++ map Act a).
  eapply m_cons; [apply (u_involve tr _ t rs); exact EN|]. change (map Act a) with ([] ++ map Act a).
  eapply m_app; [eapply involved_micro; exact I|]. rewrite app_nil_r. cbn [tok_of request_of].
  apply involved_spec in I as (x0&_&_&_&F). set (tr1 := tr ++ _) in *.
  destruct (stage_n Involved <? stage_n (x_stage x)) eqn:ST.
  { injection H as <- <-. apply m_one. apply u_refuse. reflexivity. }
  assert (SI : x_stage x = Involved) by (destruct (x_stage x); simpl in ST; try discriminate; auto).
  unfold resource_count in H. destruct (length (targets (x_branches x))) as [|[|n]] eqn:RC.
  - destruct (remove_tx (x_g x) s1) as [s2 a2] eqn:RM. injection H as <- <-. cbn [map]. apply m_one.
    rewrite (find_tx_g _ _ _ F) in RM. eapply u_nothing; eauto; [simpl; auto|]. destruct (targets (x_branches x)); [auto|discriminate].
  - destruct (ask KCommit true _ _) as [[s3 ps] a3] eqn:A. destruct (start_commit _ _ _) as [s4 a4] eqn:SC. injection H as <- <-.
    eapply begun_commit; [| |exact A|exact SC]; [|exact F]. split; auto. split; auto. split; auto.
  - destruct (ask KPrepare false _ _) as [[s3 ps] a3] eqn:A.
    eapply begun_prepare; [| |exact A|exact H]; [|exact F]. split; auto. split; auto. split; auto. right. repeat split; auto. lia.
Qed.

Lemma rollback_micro tr p corr t rs s s' a : enrolls known tr (IRollback p corr t rs) t rs s -> rollback_request p corr t rs s = (s', a) ->
  mrun tr (s, D0, Idle) (Recv (IRollback p corr t rs) :: map Act a) (s', D0, Idle).
Proof.
  intros EN H. unfold rollback_request in H. destruct (involved t rs s) as [s1 x] eqn:I.
  change (Recv (IRollback p corr t rs) :: map Act a) with ([Recv (IRollback p corr t rs)] ++ map Act a).
  eapply m_cons; [apply (u_involve tr _ t rs); exact EN|]. change (map Act a) with ([] ++ map Act a).
  eapply m_app; [eapply involved_micro; exact I|]. rewrite app_nil_r. cbn [tok_of request_of].
  apply involved_spec in I as (x0&_&_&_&F).
  destruct (ask KRollback false _ _) as [[s3 ps] a3] eqn:A. destruct (start_rollback _ _ _) as [s4 a4] eqn:SC. injection H as <- <-.
  eapply begun_rollback; [| |exact A|exact SC]; [|exact F]. split; auto.
Qed.

(* the rollback of a transaction whose owner died *)
Lemma orphan_micro tr t s s' a : mentioned tr t -> In (Recv (IExit (t_own t))) tr -> rollback_request self 0 t [] s = (s', a) ->
  mrun tr (s, D0, Idle) (map Act a) (s', D0, Idle).
Proof.
  intros MT EX H. unfold rollback_request in H. destruct (involved t [] s) as [s1 x] eqn:I.
  change (map Act a) with ([] ++ map Act a). eapply m_cons; [apply (u_touch tr t); auto|]. rewrite app_nil_r.
  change (map Act a) with ([] ++ map Act a). eapply m_app; [eapply involved_micro; exact I|]. rewrite app_nil_r.
  apply involved_spec in I as (x0&_&_&_&F).
  destruct (ask KRollback false _ _) as [[s3 ps] a3] eqn:A. destruct (start_rollback _ _ _) as [s4 a4] eqn:SC. injection H as <- <-.
  eapply begun_rollback; [| |exact A|exact SC]; [|exact F]. split; auto. exists t, (t_own t). auto 10.
Qed.

Lemma orphans_micro pid ts : forall tr s s' a, (forall t, In t ts -> mentioned tr t /\ t_own t = pid) -> In (Recv (IExit pid)) tr ->
  run_all (fun t => rollback_request self 0 t []) ts s = (s', a) -> mrun tr (s, D0, Idle) (map Act a) (s', D0, Idle).
Proof.
  induction ts as [|t ts IH]; intros tr s s' a M EX R; simpl in R.
  - injection R as <- <-. constructor.
  - destruct (rollback_request self 0 t [] s) as [s1 a1] eqn:E1. destruct (run_all _ ts s1) as [s2 a2] eqn:E2. injection R as <- <-.
    rewrite map_app. destruct (M t (or_introl eq_refl)) as [M1 M2]. eapply m_app; [eapply orphan_micro; eauto; rewrite M2; auto|].
    eapply IH; eauto; [|apply in_app_iff; auto]. intros u U. destruct (M u (or_intror U)) as [(i&I1&I2) M4]. split; auto.
    exists i. split; auto. apply in_app_iff. auto.
Qed.

Lemma reply_micro tr k c v s s' a : on_reply k c v s = Some (s', a) ->
  mrun tr (s, D0, Idle) (Recv (IReply k c v) :: map Act a) (s', D0, Idle).
Proof.
  intros H. change (Recv (IReply k c v) :: map Act a) with ([Recv (IReply k c v)] ++ map Act a). unfold on_reply in H.
  destruct k.
  - destruct (fan_reply c v (s_p s)) as [[f ds]|] eqn:F; [|discriminate].
    eapply m_cons; [eapply (u_track tr KPrepare (Reply c v)); [constructor|exact F]|]. simpl.
    apply (run_votes ds _ _ (mk_todo ds [] []) _ _ []); simpl; auto. rewrite app_nil_r. auto.
  - destruct (fan_reply c v (s_c s)) as [[f ds]|] eqn:F; [|discriminate]. destruct (run_all on_commit ds (w_c f s)) as [s1 a1] eqn:R. injection H as <- <-.
    eapply m_cons; [eapply (u_track tr KCommit (Reply c v)); [constructor|exact F]|]. simpl.
    apply (run_commits ds _ _ (mk_todo [] ds []) _ _ []); simpl; auto. rewrite app_nil_r. auto.
  - destruct (fan_reply c v (s_r s)) as [[f ds]|] eqn:F; [|discriminate]. destruct (run_all on_rollback ds (w_r f s)) as [s1 a1] eqn:R. injection H as <- <-.
    eapply m_cons; [eapply (u_track tr KRollback (Reply c v)); [constructor|exact F]|]. simpl.
    apply (run_rollbacks ds _ _ (mk_todo [] [] ds) _ _ []); simpl; auto. rewrite app_nil_r. auto.
Qed.

Lemma failed_micro tr id s s' a : coordinate_failed id s = Some (s', a) -> mrun tr (s, D0, Idle) (map Act a) (s', D0, Idle).
Proof.
  unfold coordinate_failed. destruct (fan_failed id (s_p s)) as [f1 d1] eqn:F1.
  destruct (run_prepares d1 (w_p f1 s)) as [[s1 a1]|] eqn:R1; [|discriminate].
  destruct (fan_failed id (s_c s1)) as [f2 d2] eqn:F2. destruct (run_all on_commit d2 (w_c f2 s1)) as [s2 a2] eqn:R2.
  destruct (fan_failed id (s_r s2)) as [f3 d3] eqn:F3. destruct (run_all on_rollback d3 (w_r f3 s2)) as [s3 a3] eqn:R3. intros H. injection H as <- <-.
  cbn [map]. rewrite map_app. cbn [map]. rewrite map_app. cbn [map].
  match goal with |- mrun _ _ (?x :: ?y ++ ?z :: ?w ++ ?u :: ?v) _ => change (x :: y ++ z :: w ++ u :: v) with ([x] ++ y ++ [z] ++ w ++ [u] ++ v) end.
  eapply m_cons. { eapply (u_track tr KPrepare (Fail id)); [constructor|]. simpl. rewrite F1. reflexivity. }
  simpl. eapply m_app. { apply (run_votes d1 _ _ (mk_todo d1 [] []) s1 a1 []); [simpl; rewrite app_nil_r; auto|auto|auto|exact R1]. }
  simpl. match goal with |- mrun _ _ (?z :: ?w) _ => change (z :: w) with ([z] ++ w) end.
  eapply m_cons. { eapply (u_track _ KCommit (Fail id)); [constructor|]. simpl. rewrite F2. reflexivity. }
  simpl. eapply m_app. { apply (run_commits d2 _ _ (mk_todo [] d2 []) s2 a2 []); [simpl; rewrite app_nil_r; auto|exact R2]. }
  simpl. match goal with |- mrun _ _ (?z :: ?w) _ => change (z :: w) with ([z] ++ w) end.
  eapply m_cons. { eapply (u_track _ KRollback (Fail id)); [constructor|]. simpl. rewrite F3. reflexivity. }
  simpl. apply (run_rollbacks d3 _ _ (mk_todo [] [] d3) _ _ []); auto; rewrite app_nil_r; auto.
Qed.

Lemma fails_micro ids : forall tr s s' a, fail_all ids s = Some (s', a) -> mrun tr (s, D0, Idle) (map Act a) (s', D0, Idle).
Proof.
  induction ids as [|i ids IH]; intros tr s s' a H; simpl in H.
  - injection H as <- <-. constructor.
  - destruct (coordinate_failed i s) as [[s1 a1]|] eqn:C; [|discriminate]. destruct (fail_all ids s1) as [[s2 a2]|] eqn:F; [|discriminate].
    injection H as <- <-. rewrite map_app. eapply m_app; [eapply failed_micro; eauto|]. eapply IH; eauto.
Qed.

(* ------------------------------------------------------------ all that is reachable *)
Inductive reach : list event -> cfg -> Prop :=
| r_init : reach [] (init known, D0, Idle)
| r_micro tr c e c' : reach tr c -> micro tr c e c' -> reach (tr ++ e) c'
| r_ext tr s D tk l n : reach tr (s, D, tk) -> reach tr (w_ext l n s, D, tk).

Lemma reach_mrun tr c e c' : mrun tr c e c' -> reach tr c -> reach (tr ++ e) c'.
Proof.
  induction 1 as [|tr c e1 c1 e2 c2 U R IH]; intros H.
  - rewrite app_nil_r. auto.
  - rewrite app_assoc. apply IH. eapply r_micro; eauto.
Qed.

Definition BM (tr : list event) (s : tm) : Prop :=
  forall x b, In x (s_txs s) -> In b (x_branches x) -> mentioned tr (b_trid b) /\ t_g (b_trid b) = x_g x.

Lemma partition_in {A} (p : A -> bool) l x : In x (fst (partition_pure p l)) <-> In x l /\ p x = true.
Proof.
  rewrite <- filter_In. pose proof (GroupProofs.partition_pure_perm p l _ _ (surjective_pairing _)) as [P _]. split; apply Permutation_in; [auto|apply Permutation_sym; auto].
Qed.
Lemma partition_in2 {A} (p : A -> bool) l x : In x (snd (partition_pure p l)) <-> In x l /\ p x = false.
Proof.
  pose proof (GroupProofs.partition_pure_perm p l _ _ (surjective_pairing _)) as [_ P]. split.
  - intros H. apply (Permutation_in _ P) in H. apply filter_In in H as [H1 H2]. apply negb_true_iff in H2. auto.
  - intros [H1 H2]. apply (Permutation_in _ (Permutation_sym P)). apply filter_In. rewrite H2. auto.
Qed.

Lemma in_purge b bs : In b (purge bs) -> In b bs.
Proof. unfold purge. intros H. apply partition_in in H. tauto. Qed.

Lemma in_at_branch t f b bs : In b (at_branch t f bs) -> In b bs \/ (exists b0, (In b0 bs \/ b0 = mk_b t []) /\ b = f b0 /\ same_xid (b_trid b0) t = true).
Proof.
  induction bs as [|b1 bs IH]; simpl.
  - intros [<- | []]. right. exists (mk_b t []). unfold same_xid. simpl. rewrite !Z.eqb_refl. auto.
  - destruct (same_xid (b_trid b1) t) eqn:E.
    + intros [<- | H]; [right; exists b1; auto|auto].
    + intros [<- | H]; [auto|]. destruct (IH H) as [|(b0&[I|I]&J&K)]; eauto 10.
Qed.

Lemma in_drop_res b t r bs : In b (drop_res t r bs) -> exists b0, In b0 bs /\ b_trid b = b_trid b0 /\ incl (b_res b) (b_res b0).
Proof.
  induction bs as [|b1 bs IH]; simpl; [tauto|]. destruct (same_xid (b_trid b1) t).
  - intros [<- | H]; [exists b1; split; [auto|split; auto]; intros z Z; apply filter_In in Z; tauto|exists b; split; auto; split; auto; apply incl_refl].
  - intros [<- | H]; [exists b1; split; auto; split; auto; apply incl_refl|]. destruct (IH H) as (b0&I&J). exists b0. auto.
Qed.

Lemma in_drops b vs : forall bs, In b (fold_left (fun bs v => drop_res (v_trid v) (v_rid v) bs) vs bs) ->
  exists b0, In b0 bs /\ b_trid b = b_trid b0 /\ incl (b_res b) (b_res b0).
Proof.
  induction vs as [|v vs IH]; simpl; intros bs H; [exists b; split; auto; split; auto; apply incl_refl|].
  apply IH in H as (b0&I&J&K). apply in_drop_res in I as (b1&I1&J1&K1). exists b1. split; auto. split; [congruence|]. eapply incl_tran; eauto.
Qed.

Lemma in_put_tx x y l : In y (put_tx x l) -> In y l \/ y = x.
Proof. induction l as [|z l IH]; simpl; [tauto|]. destruct (x_g z =? x_g x); simpl; intros [H|H]; auto. destruct (IH H); auto. Qed.

Lemma mentioned_app tr e t : mentioned tr t -> mentioned (tr ++ e) t.
Proof. intros (i&I&J). exists i. split; auto. apply in_app_iff; auto. Qed.

Lemma BM_app tr e s : BM tr s -> BM (tr ++ e) s.
Proof. intros H x b X B. destruct (H x b X B). split; auto. apply mentioned_app. auto. Qed.

Lemma BM_txs tr s s' : s_txs s' = s_txs s -> BM tr s -> BM tr s'.
Proof. intros E H x b X. rewrite E in X. eauto. Qed.

Lemma BM_upd tr s x : BM tr s -> (forall b, In b (x_branches x) -> mentioned tr (b_trid b) /\ t_g (b_trid b) = x_g x) -> BM tr (upd_tx x s).
Proof. intros H C y b Y B. cbn [upd_tx s_txs w_txs] in Y. apply in_put_tx in Y as [Y | ->]; eauto. Qed.

Lemma BM_touch tr s t rs : BM tr s -> mentioned tr t -> BM tr (touch t (involve rs) s).
Proof.
  intros H M. unfold touch. destruct (find_tx (t_g t) s) as [x|] eqn:F.
  - pose proof (find_tx_g _ _ _ F) as G. apply in_txs_find in F. apply (BM_upd tr s (mk_x _ _ _)); auto. intros b B. cbn [x_branches x_g] in *.
    apply in_at_branch in B as [B|(b0&[I | ->]&->&J)].
    + eauto.
    + cbn [b_trid involve]. eauto.
    + simpl. auto.
  - intros y b Y B. cbn [s_txs w_txs] in Y. apply in_app_iff in Y as [Y|[<- |[]]]; [eauto|]. cbn [x_branches x_g] in *.
    apply in_at_branch in B as [[<- |[]]|(b0&[[<- |[]] | ->]&->&J)]; simpl; auto.
Qed.

Lemma remove_txs g s s' a : remove_tx g s = (s', a) -> incl (s_txs s') (s_txs s).
Proof.
  unfold remove_tx. destruct (find_tx g _) eqn:F; intros H; injection H as <- <-; cbn [s_txs w_txs w_log]; [|apply incl_refl].
  clear. induction (s_txs s) as [|y l IH]; simpl; [apply incl_refl|]. destruct (x_g y =? g); [apply incl_tl, incl_refl|].
  intros z [<- |Z]; simpl; auto.
Qed.

Lemma BM_remove tr g s s' a : BM tr s -> remove_tx g s = (s', a) -> BM tr s'.
Proof. intros H R x b X B. apply (remove_txs _ _ _ _ R) in X. eauto. Qed.

Lemma ask_frame k fl ts : forall s s' ps a, ask k fl ts s = (s', ps, a) -> exists n, s' = w_next n s /\ n = s_next s + Z.of_nat (length ts).
Proof.
  induction ts as [|[t r] ts IH]; intros s s' ps a; cbn [ask].
  - intros H. injection H as <- <- <-. exists (s_next s). split; [destruct s; auto|simpl; lia].
  - destruct (ask k fl ts (w_next (s_next s + 1) s)) as [[s1 ps1] a1] eqn:E. intros H. injection H as <- <- <-.
    apply IH in E as (n&->&->). eexists. split; [reflexivity|]. cbn [length w_next s_next]. lia.
Qed.

Lemma in_voted b d x : In b (x_branches (voted d x)) -> exists b0, In b0 (x_branches x) /\ b_trid b = b_trid b0 /\ incl (b_res b) (b_res b0).
Proof. unfold voted. cbn [set_branches x_branches]. unfold purge_votes. intros H. apply in_purge, in_drops in H. exact H. Qed.

Lemma reach_BM tr c : reach tr c -> BM tr (fst (fst c)).
Proof.
  induction 1 as [|tr c e c' R IH U|tr s D tk l n R IH].
  - intros x b [].
  - pose proof (BM_app tr e _ IH) as IHe. clear R IH.
    destruct U; cbn [fst] in *; auto.
    + apply BM_touch; auto. destruct H as [H _]. exists i. split; auto. apply in_app_iff. simpl. auto.
    + apply BM_touch; auto. apply mentioned_app. auto.
    + apply BM_upd; auto. cbn [set_branches x_branches x_g]. intros b B. apply in_purge in B. eauto.
    + intros x b X B. cbn [s_txs w_txs] in X. apply in_app_iff in X as [X|[<- |[]]]; [eauto|]. simpl in B. destruct B as [<- |[]]. simpl.
      split; auto. apply mentioned_app. auto.
    + eapply BM_remove; eauto.
    + apply ask_frame in H1 as (n&->&_). apply (BM_txs _ (upd_tx (set_stage st x) s)); [destruct k; auto|].
      apply BM_upd; auto. apply in_txs_find in H0. cbn [set_stage x_branches x_g]. eauto.
    + apply (BM_txs _ s); [destruct k; auto|]. auto.
    + eapply BM_remove; eauto.
    + eapply BM_remove; eauto.
    + eapply BM_remove; eauto.
    + eapply BM_remove; [|eauto]. apply in_txs_find in H0. apply BM_upd; auto. intros b B. apply in_voted in B as (b0&B&->&_). exact (IHe x b0 H0 B).
    + apply (BM_txs _ (upd_tx (voted d x) s)); auto. apply in_txs_find in H0. apply BM_upd; auto. intros b B. apply in_voted in B as (b0&B&->&_). exact (IHe x b0 H0 B).
    + apply (BM_txs _ (upd_tx (voted d x) s)); [destruct (c_reply (d_call d)); auto|].
      apply in_txs_find in H0. apply BM_upd; auto. intros b B. apply in_voted in B as (b0&B&->&_). exact (IHe x b0 H0 B).
    + apply ask_frame in H2 as (n&->&_). apply (BM_txs _ (upd_tx (set_stage Commit x) s)); auto.
      apply BM_upd; auto. apply in_txs_find in H. cbn [set_stage x_branches x_g]. eauto.
    + apply in_txs_find in H0. apply BM_upd; auto. intros b B. apply in_voted in B as (b0&B&->&_). exact (IHe x b0 H0 B).
    + apply ask_frame in H4 as (n&->&_). apply (BM_txs _ (upd_tx (set_stage Rollback (voted d x)) (upd_tx (voted d x) s))); auto.
      apply in_txs_find in H0. assert (V : forall b, In b (x_branches (voted d x)) -> mentioned (tr ++ map Act a) (b_trid b) /\ t_g (b_trid b) = x_g x).
      { intros b B. apply in_voted in B as (b0&B&->&_). exact (IHe x b0 H0 B). }
      apply BM_upd; auto. apply BM_upd; auto.
  - apply (BM_txs _ s); auto.
Qed.

(* ------------------------------------------------------------ the external instances *)
Definition ext_of (s : tm) := (s_ext s, s_extid s, s_known s).
Definition ExtOk (tr : list event) (s : tm) : Prop := ext_of s = (k_ext (notes known tr), k_id (notes known tr), known).

Lemma remove_ext g s s' a : remove_tx g s = (s', a) -> ext_of s' = ext_of s.
Proof. unfold remove_tx. destruct (find_tx g _); intros H; injection H as <- <-; auto. Qed.
Lemma touch_ext t f s : ext_of (touch t f s) = ext_of s.
Proof. unfold touch. destruct (find_tx _ _); auto. Qed.

Lemma micro_ext tr c e c' : micro tr c e c' -> ext_of (fst (fst c')) = ext_of (fst (fst c)).
Proof.
  destruct 1; cbn [fst] in *; auto using touch_ext; try (eapply remove_ext; eauto; fail).
  - apply ask_frame in H1 as (n&->&_). destruct k; auto.
  - destruct k; auto.
  - apply remove_ext in H2. rewrite H2. auto.
  - destruct (c_reply (d_call d)); auto.
  - apply ask_frame in H2 as (n&->&_). auto.
  - apply ask_frame in H4 as (n&->&_). auto.
Qed.

Lemma mrun_ext tr c e c' : mrun tr c e c' -> ext_of (fst (fst c')) = ext_of (fst (fst c)).
Proof. induction 1; auto. apply micro_ext in H. congruence. Qed.

Lemma notes_app a b : notes known (a ++ b) = fold_left (note known) b (notes known a).
Proof. unfold notes. apply fold_left_app. Qed.

Lemma note_act_ext b a : k_ext (note known b (Act a)) = k_ext b /\ k_id (note known b (Act a)) = k_id b.
Proof. destruct a; auto. Qed.

Lemma notes_acts_ext tr a : k_ext (notes known (tr ++ map Act a)) = k_ext (notes known tr) /\ k_id (notes known (tr ++ map Act a)) = k_id (notes known tr).
Proof.
  rewrite notes_app. generalize (notes known tr). induction a as [|x a IH]; intros b; simpl; auto.
  destruct (IH (note known b (Act x))) as [E1 E2]. destruct (note_act_ext b x). split; etransitivity; eauto.
Qed.

Lemma last_snoc tr i cur : last_input (tr ++ [Recv i]) cur = Some i.
Proof. revert cur. induction tr as [|[j|a] tr IH]; intros cur; simpl; auto. Qed.

(* a step, given what happens to the external instances *)
Lemma reach_step tr s i s' a : reach tr (s, D0, Idle) -> ExtOk tr s -> step i s = Some (s', a) ->
  reach (tr ++ Recv i :: map Act a) (s', D0, Idle) /\ ExtOk (tr ++ Recv i :: map Act a) s'.
Proof.
  intros R X H.
  assert (EASY : mrun tr (s, D0, Idle) (Recv i :: map Act a) (s', D0, Idle) ->
     k_ext (note known (notes known tr) (Recv i)) = k_ext (notes known tr) -> k_id (note known (notes known tr) (Recv i)) = k_id (notes known tr) ->
     reach (tr ++ Recv i :: map Act a) (s', D0, Idle) /\ ExtOk (tr ++ Recv i :: map Act a) s').
  { intros M E1 E2. split; [eapply reach_mrun; eauto|]. unfold ExtOk in *. apply mrun_ext in M. cbn [fst] in M. rewrite M, X.
    change (Recv i :: map Act a) with ([Recv i] ++ map Act a). rewrite app_assoc.
    destruct (notes_acts_ext (tr ++ [Recv i]) a) as [-> ->]. rewrite notes_app. cbn [fold_left]. rewrite E1, E2. auto. }
  destruct i as [p corr t rs|p corr t rs|p corr t rs reply|k c v|p|p t|p corr t r|p corr t r|p corr t r|p corr g b own|pid|ipc|]; cbn [step] in H.
  - apply EASY; auto. apply commit_micro; auto. split; [reflexivity|]. exists rs. simpl. split; auto.
  - injection H as H. apply EASY; auto. apply rollback_micro; auto. split; [reflexivity|]. exists rs. simpl. split; auto.
  - injection H as H1 H2. apply EASY; auto.
    change (Recv (IInvolved p corr t rs reply) :: map Act a) with ([Recv (IInvolved p corr t rs reply)] ++ map Act a).
    eapply m_cons; [eapply (u_involve tr _ t); split; [reflexivity|]|].
    + exists (filter (fun r => mem r known) rs). split; [reflexivity|]. instantiate (1 := fst (partition_pure (fun r => mem r (s_known s)) (filter (fun r => negb (mem r (branch_res t s))) rs))).
      unfold ExtOk, ext_of in X. injection X as _ _ K. rewrite K. split; [|split].
      * intros r I. apply partition_in in I as [I1 I2]. apply filter_In in I1 as [I1 _]. apply filter_In. auto.
      * intros r I. apply filter_In in I as [I1 I2]. destruct (mem r (branch_res t s)) eqn:E.
        -- right. unfold mem in E. apply existsb_exists in E as (y&Y1&Y2). apply Z.eqb_eq in Y2. subst. auto.
        -- left. apply partition_in. split; auto. apply filter_In. rewrite E. auto.
      * intros N. simpl. split; auto. intros ->. apply N. reflexivity.
    + cbn [tok_of request_of]. rewrite <- H1. destruct reply.
      * subst a. apply m_one. apply u_say. reflexivity.
      * subst a. constructor.
  - apply EASY; auto. apply reply_micro; auto.
  - injection H as <- <-. split.
    + change (Recv (IExtInstance p) :: map Act []) with ([Recv (IExtInstance p)]).
      assert (R1 : reach (tr ++ [Recv (IExtInstance p)]) (s, D0, Idle)) by (eapply r_micro; [exact R|]; apply (u_recv tr (IExtInstance p)); auto).
      unfold ext_add. destruct (existsb _ _); apply r_ext; auto.
    + unfold ExtOk, ext_of in *. injection X as E1 E2 E3. rewrite notes_app. cbn [fold_left map note]. unfold ext_add. rewrite <- E1, <- E2, <- E3.
      destruct (existsb _ _); reflexivity.
  - injection H as <- <-. unfold ext_involved. destruct (ext_id p s) as [s1 i] eqn:EI. cbn [map].
    assert (P : exists l n, s1 = w_ext l n s /\ reach tr (s1, D0, Idle)).
    { unfold ext_id in EI. destruct (find _ _); injection EI as <- <-; [exists (s_ext s), (s_extid s); split; [destruct s; auto|auto]|eexists; eexists; split; [reflexivity|apply r_ext; auto]]. }
    destruct P as (l&n&E&R1). unfold ExtOk, ext_of in X. injection X as E1 E2 E3.
    assert (K : k_inv (note known (notes known tr) (Recv (IExtInvolved p t))) = k_inv (notes known tr) ++ map (fun r => (t_g t, t_b t, r)) [i] /\
                k_ext (note known (notes known tr) (Recv (IExtInvolved p t))) = s_ext s1 /\ k_id (note known (notes known tr) (Recv (IExtInvolved p t))) = s_extid s1).
    { unfold ext_id in EI. cbn [note]. rewrite <- E1, <- E2. destruct (find _ _) as [[q j]|]; injection EI as <- <-; simpl; auto. }
    destruct K as (K1&K2&K3). split.
    + change [Recv (IExtInvolved p t)] with [Recv (IExtInvolved p t)]. eapply r_micro; [exact R1|]. eapply (u_involve tr (IExtInvolved p t)). split; [reflexivity|].
      exists [i]. split; auto. split; auto. split; auto. simpl. auto.
    + unfold ExtOk. rewrite touch_ext. rewrite notes_app. cbn [fold_left]. rewrite K2, K3. unfold ext_of. subst s1. cbn [s_known w_ext]. rewrite E3. auto.
  - apply EASY; auto. change (Recv (IExtPrepare p corr t r) :: map Act a) with ([Recv (IExtPrepare p corr t r)] ++ map Act a).
    eapply m_cons; [apply u_recv; auto|]. cbn [tok_of request_of]. unfold ext_prepare in H. destruct (find_tx (t_g t) s) as [x|] eqn:F.
    2:{ injection H as <- <-. apply m_one. apply u_refuse. reflexivity. }
    destruct (stage_n Involved <? stage_n (x_stage x)) eqn:ST.
    { injection H as <- <-. apply m_one. apply u_refuse. reflexivity. }
    assert (SI : x_stage x = Involved) by (destruct (x_stage x); simpl in ST; try discriminate; auto).
    destruct (Nat.eqb (resource_count x) 0) eqn:RC.
    + destruct (remove_tx (x_g x) s) as [s1 a1] eqn:RM. injection H as <- <-. rewrite (find_tx_g _ _ _ F) in RM. simpl. apply m_one.
      apply (u_nothing _ (IExtPrepare p corr t r) (mk_a p corr ResPrepare t None (Xa read_only)) x (t_g t)); simpl; auto.
      unfold resource_count in RC. destruct (targets (x_branches x)); [auto|discriminate].
    + destruct (ask KPrepare false _ _) as [[s3 ps] a3] eqn:A. eapply begun_prepare; [| |exact A|exact H]; [|exact F]. split; auto.
  - apply EASY; auto. change (Recv (IExtCommit p corr t r) :: map Act a) with ([Recv (IExtCommit p corr t r)] ++ map Act a).
    eapply m_cons; [apply u_recv; auto|]. cbn [tok_of request_of]. unfold ext_commit in H. destruct (find_tx (t_g t) s) as [x|] eqn:F.
    2:{ injection H as <- <-. apply m_one. apply u_refuse. reflexivity. }
    destruct (x_stage x) eqn:ST; try (injection H as <- <-; apply m_one; apply u_refuse; reflexivity).
    + destruct (ask KPrepare false _ _) as [[s3 ps] a3] eqn:A. eapply begun_prepare; [| |exact A|exact H]; [|exact F]. split; auto. split; auto.
      split; [apply last_snoc|auto].
    + destruct (ask KCommit false _ _) as [[s3 ps] a3] eqn:A. destruct (start_commit _ _ _) as [s4 a4] eqn:SC. injection H as <- <-.
      eapply begun_commit; [| |exact A|exact SC]; [|exact F]. split; auto. split; auto. split; [apply last_snoc|auto].
  - injection H as H. apply EASY; auto. change (Recv (IExtRollback p corr t r) :: map Act a) with ([Recv (IExtRollback p corr t r)] ++ map Act a).
    eapply m_cons; [apply u_recv; auto|]. cbn [tok_of request_of]. unfold ext_rollback in H. destruct (find_tx (t_g t) s) as [x|] eqn:F.
    2:{ injection H as <- <-. apply m_one. apply u_refuse. reflexivity. }
    destruct (x_stage x) eqn:ST; try (injection H as <- <-; apply m_one; apply u_refuse; reflexivity).
    + destruct (ask KRollback false _ _) as [[s3 ps] a3] eqn:A. destruct (start_rollback _ _ _) as [s4 a4] eqn:SC. injection H as <- <-.
      eapply begun_rollback; [| |exact A|exact SC]; [|exact F]. split; auto. split; auto 10.
    + destruct (ask KRollback false _ _) as [[s3 ps] a3] eqn:A. destruct (start_rollback _ _ _) as [s4 a4] eqn:SC. injection H as <- <-.
      eapply begun_rollback; [| |exact A|exact SC]; [|exact F]. split; auto. split; auto 10.
  - apply EASY; auto. change (Recv (IInbound p corr g b own) :: map Act a) with ([Recv (IInbound p corr g b own)] ++ map Act a).
    eapply m_cons; [apply u_recv; auto|]. cbn [tok_of request_of]. unfold inbound in H. destruct (find_tx g s) as [x|] eqn:F.
    + destruct (x_branches x); [discriminate|]. injection H as <- <-. apply m_one. apply u_say. reflexivity.
    + injection H as <- <-. change (map Act [BranchIs p corr (mk_t g b own)]) with ([] ++ [Act (BranchIs p corr (mk_t g b own))]).
      eapply m_cons; [apply (u_new _ (mk_t g b own)); auto; exists (IInbound p corr g b own); split; [apply in_app_iff; simpl; auto|reflexivity]|].
      apply m_one. apply u_say. reflexivity.
  - unfold on_exit in H. destruct (fail_all _ s) as [[s1 a1]|] eqn:FA; [|discriminate].
    destruct (run_all _ _ _) as [s3 a3] eqn:RA. injection H as <- <-.
    set (tr1 := tr ++ [Recv (IExit pid)]).
    assert (R1 : reach tr1 (s, D0, Idle)) by (eapply r_micro; [exact R|]; apply (u_recv tr (IExit pid)); auto).
    apply (fails_micro _ tr1) in FA. pose proof (reach_mrun _ _ _ _ FA R1) as R2. apply mrun_ext in FA. cbn [fst] in FA.
    apply (r_ext _ _ _ _ (filter (fun e => negb (p_pid (fst e) =? pid)) (s_ext s1)) (s_extid s1)) in R2.
    set (s2 := w_ext _ _ s1) in *. apply (orphans_micro pid _ (tr1 ++ map Act a1)) in RA.
    + pose proof (reach_mrun _ _ _ _ RA R2) as R3. apply mrun_ext in RA. cbn [fst] in RA. unfold tr1 in R3.
      replace (tr ++ Recv (IExit pid) :: map Act (a1 ++ a3)) with (((tr ++ [Recv (IExit pid)]) ++ map Act a1) ++ map Act a3)
        by (rewrite map_app, <- !app_assoc; reflexivity).
      split; auto. unfold ExtOk in *. rewrite RA.
      destruct (notes_acts_ext ((tr ++ [Recv (IExit pid)]) ++ map Act a1) a3) as [-> ->].
      destruct (notes_acts_ext (tr ++ [Recv (IExit pid)]) a1) as [-> ->]. rewrite notes_app. cbn [fold_left note k_ext k_id].
      unfold ext_of in *. unfold s2. cbn [s_ext s_extid s_known w_ext]. injection FA as F1 F2 F3. injection X as X1 X2 X3. rewrite F1, F2, F3, X1, X2, X3. auto.
    + intros t T. unfold orphans in T. apply in_flat_map in T as (x&I&J). unfold last_branch in J.
      destruct (rev (x_branches x)) as [|b q] eqn:RV; [destruct J|]. destruct (t_own (b_trid b) =? pid) eqn:OW; [|destruct J].
      destruct J as [<- |[]]. apply Z.eqb_eq in OW. split; auto. apply reach_BM in R2. cbn [fst] in R2. apply (R2 x b I).
      apply in_rev. rewrite RV. left. auto.
    + unfold tr1. rewrite !in_app_iff. simpl. auto.
  - unfold on_destroyed in H. set (tr1 := tr ++ [Recv (IDestroyed ipc)]).
    assert (R1 : reach tr1 (s, D0, Idle)) by (eapply r_micro; [exact R|]; apply (u_recv tr (IDestroyed ipc)); auto).
    destruct (find _ _) as [e|] eqn:FE.
    + destruct (coordinate_failed _ _) as [[s1 a1]|] eqn:CF; [|discriminate]. injection H as <- <-.
      apply (failed_micro tr1) in CF. pose proof (reach_mrun _ _ _ _ CF R1) as R2. apply mrun_ext in CF. cbn [fst] in CF.
      replace (tr ++ Recv (IDestroyed ipc) :: map Act a1) with (tr1 ++ map Act a1) by (unfold tr1; rewrite <- app_assoc; reflexivity).
      split; [apply r_ext; auto|]. unfold ExtOk. destruct (notes_acts_ext tr1 a1) as [-> ->]. unfold tr1. rewrite notes_app. cbn [fold_left note k_ext k_id].
      unfold ExtOk, ext_of in *. cbn [s_ext s_extid s_known w_ext]. injection CF as F1 F2 F3. injection X as X1 X2 X3. rewrite F1, F2, F3, X1, X2, X3. auto.
    + injection H as <- <-. cbn [map]. split; auto. unfold ExtOk in *. rewrite notes_app. cbn [fold_left note k_ext k_id]. rewrite X. f_equal. f_equal.
      injection X as X1 X2 X3. rewrite <- X1. clear - FE. symmetry. induction (s_ext s) as [|e l IH]; simpl in *; auto.
      destruct (p_ipc (fst e) =? ipc); [discriminate|]. simpl. rewrite IH; auto.
  - injection H as H. apply EASY; auto. change (Recv IIdle :: map Act a) with ([Recv IIdle] ++ map Act a).
    eapply m_cons; [apply u_recv; auto|]. cbn [tok_of request_of]. unfold on_idle in H. destruct (s_replies s) eqn:RP.
    + injection H as <- <-. constructor.
    + unfold persist in H. injection H as <- <-. cbn [map]. rewrite map_map. apply m_one. apply u_persist. discriminate.
Qed.

Lemma reach_run is : forall tr s s' tr', reach tr (s, D0, Idle) -> ExtOk tr s -> run is s = Some (s', tr') ->
  reach (tr ++ tr') (s', D0, Idle) /\ ExtOk (tr ++ tr') s'.
Proof.
  induction is as [|i is IH]; intros tr s s' tr' R X H; simpl in H.
  - injection H as <- <-. rewrite app_nil_r. auto.
  - destruct (step i s) as [[s1 a]|] eqn:S; [|discriminate]. destruct (run is s1) as [[s2 tr2]|] eqn:RN; [|discriminate]. injection H as <- <-.
    destruct (reach_step _ _ _ _ _ R X S) as [R1 X1]. destruct (IH _ _ _ _ R1 X1 RN) as [R2 X2].
    replace (tr ++ Recv i :: map Act a ++ tr2) with ((tr ++ Recv i :: map Act a) ++ tr2); auto. rewrite <- app_assoc. reflexivity.
Qed.

Theorem run_reach is s tr : run is (init known) = Some (s, tr) -> reach tr (s, D0, Idle).
Proof. intros H. apply (reach_run is [] (init known) s tr); auto; [constructor|reflexivity]. Qed.

End Micro.
