(* Proofs about the send coordinator. *)
From Coq Require Import ZArith List Bool Arith Lia.
From Verif Require Import IpcModel IpcSpec IpcChunk SendModel SendSpec.
Import ListNotations.

Definition item_of (j : job) : item := (j_msg j, j_call j).

Lemma skipn_cons {A} (l : list A) n t : nth_error l n = Some t -> skipn n l = t :: skipn (S n) l.
Proof. revert n. induction l as [|x l IH]; intros [|n] H; cbn in *; try discriminate; [congruence|]. apply IH, H. Qed.
Lemma firstn_snoc {A} (l : list A) n t : nth_error l n = Some t -> firstn (S n) l = firstn n l ++ [t].
Proof. revert n. induction l as [|x l IH]; intros [|n] H; cbn in *; try discriminate; [congruence|]. f_equal. apply IH, H. Qed.

Section Max.
Variable max : nat.
Hypothesis Hmax : 0 < max.

(* n datagrams of the job are sent, not all *)
Definition begun (j : job) (n : nat) : Prop := j_off j = n * max /\ n < length (datagrams max (j_msg j)) /\ m_payload (j_msg j) <> [].

Lemma begun_left j n : begun j n -> exists t, nth_error (datagrams max (j_msg j)) n = Some t /\ front max j = t /\ 0 < left max j /\
  (S n = length (datagrams max (j_msg j)) -> j_off (pop max j) = length (m_payload (j_msg j))) /\
  (S n < length (datagrams max (j_msg j)) -> begun (pop max j) (S n)).
Proof.
  intros (Ho & Hn & Hp). destruct (nth_error (datagrams max (j_msg j)) n) as [t|] eqn:E; [|apply nth_error_None in E; lia].
  exists t. split; [reflexivity|]. destruct (datagrams_nth _ _ _ _ Hmax E) as (Et & B & C).
  assert (Hin : n * max < length (m_payload (j_msg j))).
  { destruct (Nat.eq_dec n 0) as [->|Hz]; [destruct (m_payload (j_msg j)); [contradiction|cbn; lia]|]. apply datagrams_inside; [exact Hmax|lia|exact Hn]. }
  set (L := length (m_payload (j_msg j))) in *.
  assert (Hl : left max j = if L - n * max <? max then L - n * max else max) by (unfold left; rewrite Ho; reflexivity).
  assert (Hd : length (t_data t) = left max j).
  { rewrite Et. cbn [cut t_data]. rewrite firstn_length, skipn_length. rewrite Hl. fold L. destruct (Nat.ltb_spec (L - n * max) max); lia. }
  split; [|split; [|split]].
  - rewrite Et. unfold front, cut. rewrite Ho. f_equal. rewrite Hl. destruct (Nat.ltb_spec (L - n * max) max) as [Hlt|Hge]; [|reflexivity].
    rewrite !firstn_all2; [reflexivity| |]; rewrite skipn_length; fold L; lia.
  - rewrite Hl. destruct (Nat.ltb_spec (L - n * max) max); lia.
  - intros H. specialize (B H). cbn [pop j_off]. rewrite Ho. lia.
  - intros H. destruct (C H) as [C1 C2]. split; [cbn [pop j_off]; rewrite Ho; lia|]. split; [exact H|exact Hp].
Qed.

Lemma partial_send_spec f j n w ts j' v w' : begun j n -> length (m_payload (j_msg j)) - j_off j < f -> partial_send f max j w = (ts, j', v, w') ->
  item_of j' = item_of j /\ match v with
  | Sent => firstn n (datagrams max (j_msg j)) ++ ts = datagrams max (j_msg j)
  | _ => exists n', begun j' n' /\ n <= n' /\ firstn n (datagrams max (j_msg j)) ++ ts = firstn n' (datagrams max (j_msg j))
  end.
Proof.
  revert j n w ts j' v w'. induction f as [|f IH]; intros j n w ts j' v w' B Hf; [lia|]. cbn [partial_send].
  destruct (begun_left _ _ B) as (t & Et & Ef & Hl & Hlast & Hmore). destruct (Nat.eqb_spec (left max j) 0) as [|_]; [lia|].
  assert (Hstop : forall v', (v' = Later \/ v' = Broken) -> ([], j, v', w') = (ts, j', v, w') -> item_of j' = item_of j /\ match v with
    | Sent => firstn n (datagrams max (j_msg j)) ++ ts = datagrams max (j_msg j)
    | _ => exists n', begun j' n' /\ n <= n' /\ firstn n (datagrams max (j_msg j)) ++ ts = firstn n' (datagrams max (j_msg j)) end).
  { intros v' Hv [= <- <- <-]. split; [reflexivity|]. destruct Hv as [-> | ->]; exists n; (split; [exact B|]; split; [lia|apply app_nil_r]). }
  destruct w as [|[| |] w].
  - intros E. apply (Hstop Later); [auto|]. injection E as <- <- <- <-. reflexivity.
  - destruct (partial_send f max (pop max j) w) as [[[ts1 j1] v1] w1] eqn:E1. intros [= <- <- <- <-].
    assert (Hit : item_of (pop max j) = item_of j) by reflexivity. assert (Hjm : j_msg (pop max j) = j_msg j) by reflexivity.
    destruct (Nat.eq_dec (S n) (length (datagrams max (j_msg j)))) as [Hlen|Hlen].
    + assert (Hz : left max (pop max j) = 0).
      { unfold left. rewrite (Hlast Hlen), Hjm, Nat.sub_diag. destruct (0 <? max) eqn:Ez; [reflexivity|apply Nat.ltb_ge in Ez; lia]. }
      destruct f as [|f]; cbn [partial_send] in E1.
      * exfalso. destruct B as (Ho & Hn & Hp). assert (j_off (pop max j) = j_off j + left max j) by reflexivity. rewrite (Hlast Hlen) in H. lia.
      * rewrite Hz in E1. cbn in E1. injection E1 as <- <- <- <-. split; [exact Hit|].
        rewrite Ef. rewrite <- (firstn_snoc _ _ _ Et). rewrite Hlen. apply firstn_all.
    + assert (B' : begun (pop max j) (S n)) by (apply Hmore; destruct B; lia).
      assert (Hf' : length (m_payload (j_msg (pop max j))) - j_off (pop max j) < f).
      { assert (left max j <= length (m_payload (j_msg j)) - j_off j) by (unfold left; destruct (Nat.ltb_spec (length (m_payload (j_msg j)) - j_off j) max); lia). cbn [pop j_msg j_off]. lia. }
      destruct (IH _ _ _ _ _ _ _ B' Hf' E1) as (H1 & H2). rewrite Hjm in H2. split; [congruence|]. rewrite Ef.
      replace (firstn n (datagrams max (j_msg j)) ++ t :: ts1) with (firstn (S n) (datagrams max (j_msg j)) ++ ts1) by (rewrite (firstn_snoc _ _ _ Et), <- app_assoc; reflexivity).
      destruct v1; [exact H2| |]; destruct H2 as (n' & Hb & Hle & H2); exists n'; (split; [exact Hb|]; split; [lia|exact H2]).
  - intros E. apply (Hstop Later); [auto|]. injection E as <- <- <- <-. reflexivity.
  - intros E. apply (Hstop Broken); [auto|]. injection E as <- <- <- <-. reflexivity.
Qed.
Lemma send_job_spec j n w ts j' v w' : begun j n -> send_job max j w = (ts, j', v, w') ->
  item_of j' = item_of j /\ match v with
  | Sent => firstn n (datagrams max (j_msg j)) ++ ts = datagrams max (j_msg j)
  | _ => exists n', begun j' n' /\ n <= n' /\ firstn n (datagrams max (j_msg j)) ++ ts = firstn n' (datagrams max (j_msg j))
  end.
Proof. intros B. apply partial_send_spec; [exact B|]. destruct B as (_ & _ & Hp). destruct (m_payload (j_msg j)); [contradiction|]. cbn [length]. lia. Qed.

(* ---------------------------------------------------------------- one destination *)
Definition settled (fs : list (item * fate)) : Prop := forall x f, In (x, f) fs -> match f with Done => True | Lost n => n < length (datagrams max (fst x)) | Waiting _ => False end.
Definition all_grams (fs : list (item * fate)) : list transport := flat_map (fun x => grams max (fst (fst x)) (snd x)) fs.
Definition J (g : list item) (wire : list transport) (ls : list item) (q : list job) : Prop :=
  exists a n, settled a /\ g = map fst a ++ map item_of q /\ ls = pick is_lost a /\
    wire = all_grams a ++ match q with [] => [] | j :: _ => firstn n (datagrams max (j_msg j)) end /\
    match q with [] => True | j :: r => begun j n /\ Forall (fun x => begun x 0) r end.

Lemma begun_new m c : m_payload m <> [] -> begun (mk_job m 0 c) 0.
Proof. intros H. split; [reflexivity|]. split; [cbn; pose proof (datagrams_len max m Hmax); lia|exact H]. Qed.
Lemma J_push g wire ls q m c : m_payload m <> [] -> J g wire ls q -> J (g ++ [(m, c)]) wire ls (q ++ [mk_job m 0 c]).
Proof.
  intros Hp (a & n & S & -> & Hl & Hw & Hq). destruct q as [|j r].
  - exists a, 0. split; [exact S|]. split; [rewrite <- app_assoc; reflexivity|]. split; [exact Hl|]. split; [cbn [app j_msg firstn]; exact Hw|]. split; [apply begun_new, Hp|constructor].
  - exists a, n. split; [exact S|]. split; [rewrite <- app_assoc, map_app; reflexivity|]. split; [exact Hl|]. split; [exact Hw|]. cbn [app]. destruct Hq as [H1 H2]. split; [exact H1|].
    apply Forall_app. split; [exact H2|]. constructor; [apply begun_new, Hp|constructor].
Qed.
Lemma all_grams_app a b : all_grams (a ++ b) = all_grams a ++ all_grams b.
Proof. apply flat_map_app. Qed.
Lemma pick_app p a b : pick p (a ++ b) = pick p a ++ pick p b.
Proof. unfold pick. rewrite filter_app, map_app. reflexivity. Qed.
Lemma settled_app a b : settled a -> settled b -> settled (a ++ b).
Proof. intros A B x f H. apply in_app_iff in H. destruct H; [apply A|apply B]; assumption. Qed.

Lemma J_drain q : forall g wire ls w ts q' v w', J g wire ls q -> drain max q w = (ts, q', v, w') -> J g (wire ++ ts) ls q' /\ (v = Sent -> q' = []) /\ (v <> Sent -> q' <> []).
Proof.
  induction q as [|j r IH]; intros g wire ls w ts q' v w' (a & n & S & Hg & Hl & Hw & Hq); cbn [drain].
  - intros [= <- <- <- <-]. split; [exists a, 0; rewrite !app_nil_r in *; auto|]. split; [reflexivity|congruence].
  - destruct Hq as [B F]. destruct (send_job max j w) as [[[ts1 j1] v1] w1] eqn:E. destruct (send_job_spec _ _ _ _ _ _ _ B E) as (Hi & Hs).
    destruct v1.
    + destruct (drain max r w1) as [[[ts2 q2] v2] w2] eqn:E2. intros [= <- <- <- <-].
      assert (J2 : J g (wire ++ ts1) ls r).
      { exists (a ++ [(item_of j, Done)]), 0. split; [apply settled_app; [exact S|]; intros x f [[= <- <-]|[]]; exact I|].
        split; [rewrite Hg, map_app, <- app_assoc; reflexivity|]. split; [rewrite pick_app; cbn; rewrite app_nil_r; exact Hl|]. split.
        - rewrite all_grams_app. cbn [all_grams flat_map fst snd item_of grams]. rewrite app_nil_r, Hw, <- !app_assoc. f_equal. rewrite Hs. destruct r; cbn [firstn]; rewrite app_nil_r; reflexivity.
        - destruct r as [|j2 r]; [exact I|]. inversion F; subst. auto. }
      destruct (IH _ _ _ _ _ _ _ _ J2 E2) as (J3 & H1 & H2). rewrite app_assoc. auto.
    + intros [= <- <- <- <-]. split; [|split; congruence]. destruct Hs as (n' & B' & _ & Hs). exists a, n'. split; [exact S|]. cbn [map]. rewrite Hi. split; [exact Hg|]. split; [exact Hl|].
      split; [|auto]. rewrite Hw, <- app_assoc, Hs. apply (f_equal fst) in Hi. cbn in Hi. rewrite Hi. reflexivity.
    + intros [= <- <- <- <-]. split; [|split; congruence]. destruct Hs as (n' & B' & _ & Hs). exists a, n'. split; [exact S|]. cbn [map]. rewrite Hi. split; [exact Hg|]. split; [exact Hl|].
      split; [|auto]. rewrite Hw, <- app_assoc, Hs. apply (f_equal fst) in Hi. cbn in Hi. rewrite Hi. reflexivity.
Qed.

Lemma J_fail g wire ls q : J g wire ls q -> J g wire (ls ++ map item_of q) [].
Proof.
  intros (a & n & S & Hg & Hl & Hw & Hq).
  set (b := match q with [] => [] | j :: r => (item_of j, Lost n) :: map (fun x => (item_of x, Lost 0)) r end).
  assert (H0 : forall r, all_grams (map (fun x => (item_of x, Lost 0)) r) = []) by (induction r; [reflexivity|assumption]).
  assert (H1 : forall r, pick is_lost (map (fun x => (item_of x, Lost 0)) r) = map item_of r) by (induction r; [reflexivity|]; unfold pick in *; cbn; f_equal; assumption).
  assert (H2 : forall r, map fst (map (fun x => (item_of x, Lost 0)) r) = map item_of r) by (intros r; rewrite map_map; reflexivity).
  exists (a ++ b), 0. split; [apply settled_app; [exact S|]|].
  - unfold b. destruct q as [|j r]; [intros ? ? []|]. destruct Hq as [(_ & B & _) F]. intros x f [[= <- <-]|H]; [exact B|].
    apply in_map_iff in H. destruct H as (y & [= <- <-] & Hy). rewrite Forall_forall in F. destruct (F y Hy) as (_ & F' & _). exact F'.
  - split; [|split; [|split; [|exact I]]].
    + rewrite map_app, app_nil_r, Hg. f_equal. unfold b. destruct q as [|j r]; [reflexivity|]. cbn [map]. rewrite H2. reflexivity.
    + rewrite pick_app, Hl. f_equal. unfold b. destruct q as [|j r]; [reflexivity|]. change (pick is_lost ((item_of j, Lost n) :: map (fun x => (item_of x, Lost 0)) r)) with (item_of j :: pick is_lost (map (fun x => (item_of x, Lost 0)) r)). rewrite H1. reflexivity.
    + rewrite all_grams_app, app_nil_r, Hw. f_equal. unfold b. destruct q as [|j r]; [reflexivity|]. cbn [all_grams flat_map fst snd item_of grams]. fold (all_grams (map (fun x => (item_of x, Lost 0)) r)). rewrite H0, app_nil_r. reflexivity.
Qed.

(* ---------------------------------------------------------------- the events *)
Lemma sent_to_app d a b : sent_to d (a ++ b) = sent_to d a ++ sent_to d b.
Proof. apply flat_map_app. Qed.
Lemma lost_to_app d a b : lost_to d (a ++ b) = lost_to d a ++ lost_to d b.
Proof. apply flat_map_app. Qed.
Lemma sent_grams d ipc ts : sent_to d (map (E_gram ipc) ts) = if (ipc =? d)%Z then ts else [].
Proof. induction ts as [|t ts IH]; cbn; [destruct (ipc =? d)%Z; reflexivity|]. unfold sent_to in IH. rewrite IH. destruct (ipc =? d)%Z; reflexivity. Qed.
Lemma lost_grams d ipc ts : lost_to d (map (E_gram ipc) ts) = [].
Proof. induction ts as [|t ts IH]; [reflexivity|exact IH]. Qed.
Lemma sent_lost d ipc q : sent_to d (lost ipc q) = [].
Proof. induction q as [|t ts IH]; [reflexivity|exact IH]. Qed.
Lemma lost_lost d ipc q : lost_to d (lost ipc q) = if (ipc =? d)%Z then map item_of q else [].
Proof. induction q as [|j q IH]; cbn; [destruct (ipc =? d)%Z; reflexivity|]. unfold lost_to, lost in IH. rewrite IH. destruct (ipc =? d)%Z; reflexivity. Qed.

Definition qof (d : Z) (ds : list remote) : list job := flat_map (fun r => if (r_ipc r =? d)%Z then r_queue r else []) ds.
Lemma qof_app d a b : qof d (a ++ b) = qof d a ++ qof d b.
Proof. apply flat_map_app. Qed.
Lemma qof_absent d ds : ~ In d (map r_ipc ds) -> qof d ds = [].
Proof. induction ds as [|r ds IH]; [reflexivity|]. cbn. intros H. destruct (Z.eqb_spec (r_ipc r) d) as [Hx|]; [exfalso; apply H; auto|]. apply IH. tauto. Qed.

Definition opt_list (o : option remote) : list remote := match o with Some r => [r] | None => [] end.

(* remote_send seen from every destination *)
Lemma remote_send_spec r w fds o es w' fds' : remote_send max r w fds = (o, es, w', fds') ->
  fds' = match o with Some _ => fds | None => fd_remove (r_fd r) fds end /\
  (forall d, d <> r_ipc r -> sent_to d es = [] /\ lost_to d es = []) /\
  (forall g wire ls, J g wire ls (r_queue r) -> (forall r', o = Some r' -> r_ipc r' = r_ipc r /\ r_fd r' = r_fd r /\ r_queue r' <> []) /\
     J g (wire ++ sent_to (r_ipc r) es) (ls ++ lost_to (r_ipc r) es) (match o with Some r' => r_queue r' | None => [] end)).
Proof.
  unfold remote_send. destruct (drain max (r_queue r) w) as [[[ts q] v] w1] eqn:E. 
  assert (Hd : forall g wire ls, J g wire ls (r_queue r) -> J g (wire ++ ts) ls q /\ (v = Sent -> q = []) /\ (v <> Sent -> q <> [])) by (intros; eapply J_drain; eassumption).
  assert (Hne : forall d, d <> r_ipc r -> (r_ipc r =? d)%Z = false) by (intros; apply Z.eqb_neq; congruence).
  destruct v; intros [= <- <- <- <-].
  - split; [reflexivity|]. split.
    + intros d H. rewrite sent_grams, lost_grams, (Hne d H). auto.
    + intros g wire ls H. split; [intros r' H'; discriminate|]. destruct (Hd _ _ _ H) as (HJ & Hs & _). rewrite (Hs eq_refl) in HJ. rewrite sent_grams, lost_grams, Z.eqb_refl, app_nil_r. exact HJ.
  - split; [reflexivity|]. split.
    + intros d H. rewrite sent_grams, lost_grams, (Hne d H). auto.
    + intros g wire ls H. destruct (Hd _ _ _ H) as (HJ & _ & Hs). split; [intros r' [= <-]; cbn; split; [reflexivity|]; split; [reflexivity|]; apply Hs; discriminate|]. cbn [r_queue].
      rewrite sent_grams, lost_grams, Z.eqb_refl, app_nil_r. exact HJ.
  - split; [reflexivity|]. split.
    + intros d H. rewrite sent_to_app, lost_to_app, sent_grams, lost_grams, sent_lost, lost_lost, (Hne d H). auto.
    + intros g wire ls H. split; [intros r' H'; discriminate|]. destruct (Hd _ _ _ H) as (HJ & _ & _). rewrite sent_to_app, lost_to_app, sent_grams, lost_grams, sent_lost, lost_lost, Z.eqb_refl, app_nil_r. apply J_fail, HJ.
Qed.

(* ---------------------------------------------------------------- the whole coordinator *)
Record G (given_ : Z -> list item) (es : list event) (ds : list remote) : Prop := {
  G_ipc : NoDup (map r_ipc ds);
  G_busy : forall r, In r ds -> r_queue r <> [];
  G_J : forall d, J (given_ d) (sent_to d es) (lost_to d es) (qof d ds) }.
Definition armed (ds : list remote) (fds : list Z) : Prop := NoDup (map r_fd ds) /\ forall fd, In fd fds <-> In fd (map r_fd ds).

(* replacing one destination *)
Lemma G_replace gv gv' es es' a r b o : G gv es (a ++ r :: b) ->
  (forall r', o = Some r' -> r_ipc r' = r_ipc r /\ r_queue r' <> []) -> (forall d, d <> r_ipc r -> gv' d = gv d /\ sent_to d es' = [] /\ lost_to d es' = []) ->
  (J (gv (r_ipc r)) (sent_to (r_ipc r) es) (lost_to (r_ipc r) es) (r_queue r) -> J (gv' (r_ipc r)) (sent_to (r_ipc r) es ++ sent_to (r_ipc r) es') (lost_to (r_ipc r) es ++ lost_to (r_ipc r) es') (match o with Some r' => r_queue r' | None => [] end)) ->
  G gv' (es ++ es') (a ++ opt_list o ++ b).
Proof.
  intros [N B HJ] Ho Hd Hr. 
  assert (Nr : ~ In (r_ipc r) (map r_ipc a) /\ ~ In (r_ipc r) (map r_ipc b)).
  { rewrite map_app in N. cbn in N. apply NoDup_remove_2 in N. rewrite in_app_iff in N. tauto. }
  destruct Nr as [Na Nb].
  assert (Hall : forall x, In x (map r_ipc (a ++ opt_list o ++ b)) -> In x (map r_ipc (a ++ r :: b))).
  { intros x. rewrite !map_app, !in_app_iff. destruct o as [r'|]; cbn; [destruct (Ho r' eq_refl) as [-> _]; tauto|tauto]. }
  constructor.
  - rewrite map_app in N |- *. cbn in N. destruct o as [r'|]; cbn [opt_list app map]; [destruct (Ho r' eq_refl) as [-> _]; exact N|]. apply NoDup_remove_1 in N. rewrite <- map_app in *. exact N.
  - intros x Hx. rewrite !in_app_iff in Hx. destruct Hx as [Hx|[Hx|Hx]]; [apply B, in_app_iff; auto| |apply B, in_app_iff; right; right; exact Hx].
    destruct o as [r'|]; [destruct Hx as [<-|[]]; apply (Ho r' eq_refl)|destruct Hx].
  - intros d. rewrite sent_to_app, lost_to_app. destruct (Z.eq_dec d (r_ipc r)) as [->|Hne].
    + replace (qof (r_ipc r) (a ++ opt_list o ++ b)) with (match o with Some r' => r_queue r' | None => [] end).
      * apply Hr. specialize (HJ (r_ipc r)). rewrite qof_app, (qof_absent _ a Na) in HJ. cbn in HJ. fold (qof (r_ipc r) b) in HJ. rewrite Z.eqb_refl, (qof_absent _ b Nb), app_nil_r in HJ. exact HJ.
      * rewrite !qof_app, (qof_absent _ a Na), (qof_absent _ b Nb), app_nil_r. destruct o as [r'|]; [|reflexivity]. cbn. destruct (Ho r' eq_refl) as [-> _]. rewrite Z.eqb_refl, app_nil_r. reflexivity.
    + destruct (Hd d Hne) as (-> & -> & ->). rewrite !app_nil_r. specialize (HJ d).
      assert (Hz : (r_ipc r =? d)%Z = false) by (apply Z.eqb_neq; congruence).
      replace (qof d (a ++ opt_list o ++ b)) with (qof d (a ++ r :: b)); [exact HJ|]. rewrite !qof_app. f_equal. cbn. rewrite Hz. destruct o as [r'|]; [|reflexivity]. cbn. destruct (Ho r' eq_refl) as [-> _]. rewrite Hz. reflexivity.
Qed.

Lemma fd_remove_in x l y : In y (fd_remove x l) <-> In y l /\ y <> x.
Proof. unfold fd_remove. rewrite filter_In. destruct (Z.eqb_spec x y); cbn; intuition congruence. Qed.
Lemma fd_add_in x l y : In y (fd_add x l) <-> y = x \/ In y l.
Proof.
  unfold fd_add. destruct (existsb (Z.eqb x) l) eqn:E; [|cbn; intuition congruence]. apply existsb_exists in E. destruct E as (z & Hz & E). apply Z.eqb_eq in E. subst z. intuition congruence.
Qed.
Lemma armed_replace a r b o fds : armed (a ++ r :: b) fds -> (forall r', o = Some r' -> r_fd r' = r_fd r) ->
  armed (a ++ opt_list o ++ b) (match o with Some _ => fds | None => fd_remove (r_fd r) fds end).
Proof.
  intros [N H] Ho. rewrite map_app in N. cbn in N. pose proof (NoDup_remove_2 _ _ _ N) as N2. destruct o as [r'|].
  - specialize (Ho r' eq_refl). split; [rewrite map_app; cbn; rewrite Ho; exact N|]. intros fd. rewrite H. rewrite !map_app. cbn. rewrite Ho. reflexivity.
  - cbn [opt_list app]. split; [rewrite map_app; apply NoDup_remove_1 in N; exact N|]. intros fd. rewrite fd_remove_in, H, !map_app, !in_app_iff. cbn. rewrite <- map_app in N2. split.
    + intros [[?|[?|?]] ?]; [tauto|congruence|tauto].
    + intros Hi. split; [tauto|]. intros ->. apply N2. rewrite map_app, in_app_iff. exact Hi.
Qed.

Lemma at_first_spec p f ds w fds ds' es fds' : at_first p f max ds w fds = Some (ds', es, fds') ->
  exists a r b o w', ds = a ++ r :: b /\ p r = true /\ remote_send max (f r) w fds = (o, es, w', fds') /\ ds' = a ++ opt_list o ++ b.
Proof.
  revert ds' es fds'. induction ds as [|r ds IH]; intros ds' es fds'; cbn; [discriminate|]. destruct (p r) eqn:E.
  - destruct (remote_send max (f r) w fds) as [[[o es1] w1] fds1] eqn:E1. intros [= <- <- <-]. exists [], r, ds, o, w1. cbn. repeat split; auto. destruct o; reflexivity.
  - destruct (at_first p f max ds w fds) as [[[ds1 es1] fds1]|] eqn:E1; [|discriminate]. intros [= <- <- <-]. destruct (IH _ _ _ eq_refl) as (a & x & b & o & w' & -> & Hp & Hr & ->).
    exists (r :: a), x, b, o, w'. repeat split; auto.
Qed.
Lemma at_first_none p f ds w fds : at_first p f max ds w fds = None -> forall r, In r ds -> p r = false.
Proof.
  induction ds as [|r ds IH]; cbn; [intros _ ? []|]. destruct (p r) eqn:E; [destruct (remote_send max (f r) w fds) as [[[o es1] w1] fds1]; discriminate|].
  destruct (at_first p f max ds w fds) as [[[ds1 es1] fds1]|]; [discriminate|]. intros _ x [<-|Hx]; auto.
Qed.

Definition with_payload (o : cop) : Prop := match o with C_send _ m _ _ _ => m_payload m <> [] | _ => True end.
Definition fresh_fd (o : cop) (c : coord) : Prop := match o with C_send _ _ _ (Some fd) _ => ~ In fd (map r_fd (co_dest c)) | _ => True end.
Definition gives (d : Z) (o : cop) : list item := given d [o].

Lemma G_new gv gv' es es' ds ipc o : G gv es ds -> ~ In ipc (map r_ipc ds) -> (forall r, o = Some r -> r_ipc r = ipc /\ r_queue r <> []) ->
  (forall d, d <> ipc -> gv' d = gv d /\ sent_to d es' = [] /\ lost_to d es' = []) ->
  (J (gv ipc) (sent_to ipc es) (lost_to ipc es) [] -> J (gv' ipc) (sent_to ipc es ++ sent_to ipc es') (lost_to ipc es ++ lost_to ipc es') (match o with Some r' => r_queue r' | None => [] end)) ->
  G gv' (es ++ es') (ds ++ opt_list o).
Proof.
  intros [N B HJ] Hn Ho Hd Hr. constructor.
  - rewrite map_app. destruct o as [r|]; [|cbn; rewrite app_nil_r; exact N]. cbn. destruct (Ho r eq_refl) as [-> _]. apply NoDup_Add with (a := ipc) (l := map r_ipc ds); [|split; assumption].
    rewrite <- (app_nil_r (map r_ipc ds)) at 1. apply Add_app.
  - intros x Hx. apply in_app_iff in Hx. destruct Hx as [Hx|Hx]; [apply B, Hx|]. destruct o as [r|]; [destruct Hx as [<-|[]]; apply (Ho r eq_refl)|destruct Hx].
  - intros d. rewrite sent_to_app, lost_to_app, qof_app. destruct (Z.eq_dec d ipc) as [->|Hne].
    + rewrite (qof_absent _ _ Hn). specialize (HJ ipc). rewrite (qof_absent _ _ Hn) in HJ. specialize (Hr HJ). destruct o as [r|]; [|exact Hr]. cbn. destruct (Ho r eq_refl) as [-> _]. rewrite Z.eqb_refl, app_nil_r. exact Hr.
    + destruct (Hd d Hne) as (-> & -> & ->). rewrite !app_nil_r. destruct o as [r|]; [|cbn; rewrite app_nil_r; apply HJ]. cbn. destruct (Ho r eq_refl) as [-> _]. replace (ipc =? d)%Z with false by (symmetry; apply Z.eqb_neq; congruence). cbn. rewrite app_nil_r. apply HJ.
Qed.

Lemma gives_send d ipc m call open w : gives d (C_send ipc m call open w) = if (ipc =? d)%Z then [(m, call)] else [].
Proof. unfold gives, given. cbn. apply app_nil_r. Qed.
Lemma sent_return d l ipc m b : sent_to d (l ++ [E_return ipc m b]) = sent_to d l.
Proof. rewrite sent_to_app. cbn. apply app_nil_r. Qed.
Lemma lost_return d l ipc m b : lost_to d (l ++ [E_return ipc m b]) = lost_to d l.
Proof. rewrite lost_to_app. cbn. apply app_nil_r. Qed.

Lemma send_each_spec ds : forall gv es a w fds ds' es' fds', send_each max ds w fds = (ds', es', fds') -> G gv es (a ++ ds) -> G gv (es ++ es') (a ++ ds') /\ (armed (a ++ ds) fds -> armed (a ++ ds') fds').
Proof.
  induction ds as [|r ds IH]; intros gv es a w fds ds' es' fds'; cbn.
  - intros [= <- <- <-] H. rewrite app_nil_r. auto.
  - destruct (remote_send max r w fds) as [[[o es1] w1] fds1] eqn:E1. destruct (send_each max ds w1 fds1) as [[ds2 es2] fds2] eqn:E2. intros [= <- <- <-] HG.
    destruct (remote_send_spec _ _ _ _ _ _ _ E1) as (Hf & Hd & HJ). 
    assert (Hq : J (gv (r_ipc r)) (sent_to (r_ipc r) es) (lost_to (r_ipc r) es) (r_queue r)).
    { pose proof (G_J _ _ _ HG (r_ipc r)) as H. pose proof (G_ipc _ _ _ HG) as N. rewrite map_app in N. cbn in N. apply NoDup_remove_2 in N. rewrite in_app_iff in N.
      rewrite qof_app, qof_absent in H by tauto. cbn in H. fold (qof (r_ipc r) ds) in H. rewrite Z.eqb_refl, (qof_absent _ ds), app_nil_r in H by tauto. exact H. }
    destruct (HJ _ _ _ Hq) as (Ho & HJ').
    assert (HG' : G gv (es ++ es1) ((a ++ opt_list o) ++ ds)).
    { rewrite <- app_assoc. apply (G_replace gv gv es es1 a r ds o HG); auto. intros r' Hr'. destruct (Ho r' Hr') as (? & ? & ?). auto. }
    destruct (IH _ _ _ _ _ _ _ _ E2 HG') as (R1 & R2). split.
    + rewrite app_assoc. replace (a ++ match o with Some r' => r' :: ds2 | None => ds2 end) with ((a ++ opt_list o) ++ ds2); [exact R1|]. destruct o; cbn; rewrite <- app_assoc; reflexivity.
    + intros Ha. replace (a ++ match o with Some r' => r' :: ds2 | None => ds2 end) with ((a ++ opt_list o) ++ ds2) by (destruct o; cbn; rewrite <- app_assoc; reflexivity).
      apply R2. rewrite <- app_assoc, Hf. apply (armed_replace a r ds o fds Ha). intros r' Hr'. destruct (Ho r' Hr') as (_ & ? & _). assumption.
Qed.

Lemma step_G gv es o c c' es' : with_payload o -> G gv es (co_dest c) -> cstep max o c = (c', es') ->
  G (fun d => gv d ++ gives d o) (es ++ es') (co_dest c') /\ (fresh_fd o c -> armed (co_dest c) (co_write c) -> armed (co_dest c') (co_write c')).
Proof.
  intros Hp HG. destruct o as [ipc m call open w|fd w|w|ipc]; cbn [cstep with_payload fresh_fd] in *.
  - unfold coord_send. set (j := mk_job m 0 call). destruct (at_first _ _ max (co_dest c) w (co_write c)) as [[[ds es1] fds]|] eqn:E.
    + intros [= <- <-]. cbn [co_dest co_write]. destruct (at_first_spec _ _ _ _ _ _ _ _ E) as (a & r & b & o & w' & Ed & Hi & Er & ->). apply Z.eqb_eq in Hi. rewrite Ed in HG |- *.
      destruct (remote_send_spec _ _ _ _ _ _ _ Er) as (Hf & Hd & HJ). cbn [r_ipc r_fd r_queue] in *.
      pose proof (G_J _ _ _ HG (r_ipc r)) as Hq. pose proof (G_ipc _ _ _ HG) as N. rewrite map_app in N. cbn in N. apply NoDup_remove_2 in N. rewrite in_app_iff in N.
      rewrite qof_app, qof_absent in Hq by tauto. cbn in Hq. fold (qof (r_ipc r) b) in Hq. rewrite Z.eqb_refl, (qof_absent _ b), app_nil_r in Hq by tauto.
      apply (J_push _ _ _ _ m call Hp) in Hq. destruct (HJ _ _ _ Hq) as (Ho & HJ').
      split.
      * apply (G_replace gv _ es _ a r b o HG); [intros r' Hr'; destruct (Ho r' Hr') as (? & ? & ?); auto| |].
        { intros d Hne. rewrite gives_send, sent_return, lost_return. replace (ipc =? d)%Z with false by (symmetry; apply Z.eqb_neq; congruence). rewrite app_nil_r. destruct (Hd d Hne). auto. }
        { intros _. rewrite gives_send, sent_return, lost_return, Hi, Z.eqb_refl. rewrite Hi in *. exact HJ'. }
      * intros _ Ha. rewrite Hf. apply (armed_replace a r b o _ Ha). intros r' Hr'. destruct (Ho r' Hr') as (_ & ? & _). assumption.
    + pose proof (at_first_none _ _ _ _ _ E) as Hn. assert (Hn' : ~ In ipc (map r_ipc (co_dest c))).
      { intros H. apply in_map_iff in H. destruct H as (r & Hr & Hin). apply Hn in Hin. cbn in Hin. rewrite Hr, Z.eqb_refl in Hin. discriminate. }
      clear E Hn. assert (Hone : forall f, G f (es ++ es') (co_dest c ++ opt_list None) -> G f (es ++ es') (co_dest c)) by (intros f; cbn; rewrite app_nil_r; auto).
      assert (Hoth : forall d, d <> ipc -> gv d ++ gives d (C_send ipc m call open w) = gv d) by (intros d Hne; rewrite gives_send; replace (ipc =? d)%Z with false by (symmetry; apply Z.eqb_neq; congruence); apply app_nil_r).
      assert (Hsame : gv ipc ++ gives ipc (C_send ipc m call open w) = gv ipc ++ [(m, call)]) by (rewrite gives_send, Z.eqb_refl; reflexivity).
      destruct open as [fd|].
      * assert (HJ0 : J (gv ipc) (sent_to ipc es) (lost_to ipc es) [] -> forall ts j' v w', send_job max j w = (ts, j', v, w') ->
           (v = Sent -> J (gv ipc ++ [(m, call)]) (sent_to ipc es ++ ts) (lost_to ipc es) []) /\
           (v = Later -> J (gv ipc ++ [(m, call)]) (sent_to ipc es ++ ts) (lost_to ipc es) [j']) /\
           (v = Broken -> J (gv ipc ++ [(m, call)]) (sent_to ipc es ++ ts) (lost_to ipc es ++ [(m, call)]) [])).
        { intros H ts j' v w' Ej. apply (J_push _ _ _ _ m call Hp) in H. fold j in H. assert (Hit : item_of j' = (m, call)) by (destruct (send_job_spec _ 0 _ _ _ _ _ (begun_new m call Hp) Ej) as (Hi & _); exact Hi).
          destruct v; cbn in H; (split; [|split]); intros Hv; try discriminate.
          - edestruct (J_drain [j]) as (K & _ & _); [exact H|cbn [drain]; rewrite Ej; reflexivity|]. rewrite app_nil_r in K. exact K.
          - edestruct (J_drain [j]) as (K & _ & _); [exact H|cbn [drain]; rewrite Ej; reflexivity|]. exact K.
          - edestruct (J_drain [j]) as (K & _ & _); [exact H|cbn [drain]; rewrite Ej; reflexivity|]. apply J_fail in K. cbn in K. rewrite Hit in K. exact K. }
        destruct (send_job max j w) as [[[ts j'] v] w'] eqn:Ej. destruct v; intros [= <- <-]; cbn [co_dest co_write].
        { split; [|auto]. rewrite <- (app_nil_r (co_dest c)). apply (G_new gv _ es _ (co_dest c) ipc None HG Hn'); [discriminate| |].
          - intros d Hne. rewrite sent_return, lost_return, sent_grams, lost_grams. replace (ipc =? d)%Z with false by (symmetry; apply Z.eqb_neq; congruence). auto.
          - intros H. rewrite Hsame, sent_return, lost_return, sent_grams, lost_grams, Z.eqb_refl, app_nil_r. destruct (HJ0 H _ _ _ _ eq_refl) as (K & _ & _). apply K; reflexivity. }
        { split.
          - apply (G_new gv _ es _ (co_dest c) ipc (Some (mk_remote ipc fd [j'])) HG Hn'); [intros r [= <-]; split; [reflexivity|discriminate]| |].
            + intros d Hne. rewrite sent_return, lost_return, sent_grams, lost_grams. replace (ipc =? d)%Z with false by (symmetry; apply Z.eqb_neq; congruence). auto.
            + intros H. rewrite Hsame, sent_return, lost_return, sent_grams, lost_grams, Z.eqb_refl, app_nil_r. destruct (HJ0 H _ _ _ _ eq_refl) as (_ & K & _). apply K; reflexivity.
          - intros Hfd [A1 A2]. split.
            + rewrite map_app. cbn. apply NoDup_Add with (a := fd) (l := map r_fd (co_dest c)); [|split; assumption]. rewrite <- (app_nil_r (map r_fd (co_dest c))) at 1. apply Add_app.
            + intros x. rewrite fd_add_in, A2, map_app, in_app_iff. cbn. intuition congruence. }
        { split; [|auto]. rewrite <- (app_nil_r (co_dest c)). apply (G_new gv _ es _ (co_dest c) ipc None HG Hn'); [discriminate| |].
          - intros d Hne. rewrite sent_to_app, lost_to_app, sent_grams, lost_grams. cbn. replace (ipc =? d)%Z with false by (symmetry; apply Z.eqb_neq; congruence). cbn. rewrite ?app_nil_r. auto.
          - intros H. rewrite Hsame, sent_to_app, lost_to_app, sent_grams, lost_grams, Z.eqb_refl. cbn. rewrite Z.eqb_refl, app_nil_r. destruct (HJ0 H _ _ _ _ eq_refl) as (_ & _ & K). apply K; reflexivity. }
      * intros [= <- <-]. split; [|auto]. rewrite <- (app_nil_r (co_dest c)). apply (G_new gv _ es _ (co_dest c) ipc None HG Hn'); [discriminate| |].
        { intros d Hne. cbn. replace (ipc =? d)%Z with false by (symmetry; apply Z.eqb_neq; congruence). cbn. rewrite ?app_nil_r. auto. }
        { intros H. rewrite Hsame. cbn. rewrite Z.eqb_refl. cbn. rewrite app_nil_r. apply (J_push _ _ _ _ m call Hp) in H. apply J_fail in H. exact H. }
  - assert (Hgv : G (fun d => gv d ++ gives d (C_ready fd w)) es (co_dest c)).
    { destruct HG as [? ? HJ]. constructor; auto. intros d. specialize (HJ d). unfold gives. cbn. rewrite app_nil_r. exact HJ. }
    set (gv' := fun d => gv d ++ gives d (C_ready fd w)) in *. clearbody gv'. clear HG gv. unfold coord_ready.
    destruct (at_first _ _ max (co_dest c) w (co_write c)) as [[[ds es1] fds]|] eqn:E; intros [= <- <-]; [|rewrite app_nil_r; auto]. cbn [co_dest co_write].
    destruct (at_first_spec _ _ _ _ _ _ _ _ E) as (a & r & b & o & w' & Ed & Hi & Er & ->). rewrite Ed in Hgv |- *. destruct (remote_send_spec _ _ _ _ _ _ _ Er) as (Hf & Hd & HJ).
    pose proof (G_J _ _ _ Hgv (r_ipc r)) as Hq. pose proof (G_ipc _ _ _ Hgv) as N. rewrite map_app in N. cbn in N. apply NoDup_remove_2 in N. rewrite in_app_iff in N.
    rewrite qof_app, qof_absent in Hq by tauto. cbn in Hq. fold (qof (r_ipc r) b) in Hq. rewrite Z.eqb_refl, (qof_absent _ b), app_nil_r in Hq by tauto.
    destruct (HJ _ _ _ Hq) as (Ho & HJ'). split.
    + apply (G_replace gv' gv' es _ a r b o Hgv); auto. intros r' Hr'; destruct (Ho r' Hr') as (? & ? & ?); auto.
    + intros _ Ha. rewrite Hf. apply (armed_replace a r b o _ Ha). intros r' Hr'. destruct (Ho r' Hr') as (_ & ? & _). assumption.
  - assert (Hgv : G (fun d => gv d ++ gives d (C_all w)) es (co_dest c)).
    { destruct HG as [? ? HJ]. constructor; auto. intros d. specialize (HJ d). unfold gives. cbn. rewrite app_nil_r. exact HJ. }
    unfold coord_all. destruct (send_each max (co_dest c) w (co_write c)) as [[ds es1] fds] eqn:E. intros [= <- <-]. cbn [co_dest co_write].
    destruct (send_each_spec _ _ _ [] _ _ _ _ _ E Hgv) as (R1 & R2). split; [exact R1|]. intros _. exact R2.
  - assert (Hgv : G (fun d => gv d ++ gives d (C_failed ipc)) es (co_dest c)).
    { destruct HG as [? ? HJ]. constructor; auto. intros d. specialize (HJ d). unfold gives. cbn. rewrite app_nil_r. exact HJ. }
    set (gv' := fun d => gv d ++ gives d (C_failed ipc)) in *. clearbody gv'. clear HG gv. unfold coord_failed.
    assert (Hff : forall ds fds ds' e fds', fail_first ipc ds fds = (ds', e, fds') -> (ds' = ds /\ e = [] /\ fds' = fds) \/
       exists a r b, ds = a ++ r :: b /\ r_ipc r = ipc /\ ds' = a ++ b /\ e = lost (r_ipc r) (r_queue r) /\ fds' = fd_remove (r_fd r) fds).
    { clear. induction ds as [|r ds IH]; intros fds ds' e fds'; cbn; [intros [= <- <- <-]; auto|]. destruct (Z.eqb_spec (r_ipc r) ipc) as [Hi|Hi].
      - intros [= <- <- <-]. right. exists [], r, ds. auto.
      - destruct (fail_first ipc ds fds) as [[ds1 e1] f1] eqn:E. intros [= <- <- <-]. destruct (IH _ _ _ _ E) as [(-> & -> & ->)|(a & x & b & -> & Hx & -> & -> & ->)]; [left; auto|right].
        exists (r :: a), x, b. auto. }
    destruct (fail_first ipc (co_dest c) (co_write c)) as [[ds es1] fds] eqn:E. intros [= <- <-]. cbn [co_dest co_write].
    destruct (Hff _ _ _ _ _ E) as [(-> & -> & ->)|(a & r & b & Ed & Hr & -> & -> & ->)]; [rewrite app_nil_r; auto|]. rewrite Ed in Hgv |- *. split.
    + apply (G_replace gv' gv' es _ a r b None Hgv); [discriminate| |].
      * intros d Hne. rewrite sent_lost, lost_lost. replace (r_ipc r =? d)%Z with false by (symmetry; apply Z.eqb_neq; congruence). auto.
      * intros H. rewrite sent_lost, lost_lost, Z.eqb_refl, app_nil_r. apply J_fail, H.
    + intros _ Ha. apply (armed_replace a r b None _ Ha). discriminate.
Qed.

Lemma crun_G l : forall gv es c c' es', Forall with_payload l -> G gv es (co_dest c) -> crun max l c = (c', es') ->
  G (fun d => gv d ++ given d l) (es ++ es') (co_dest c') /\ (fresh_fds max l c -> armed (co_dest c) (co_write c) -> armed (co_dest c') (co_write c')).
Proof.
  induction l as [|o l IH]; intros gv es c c' es' Hp HG; cbn.
  - intros [= <- <-]. rewrite app_nil_r. split; [|auto]. destruct HG as [? ? HJ]. constructor; auto. intros d. rewrite app_nil_r. apply HJ.
  - destruct (cstep max o c) as [c1 e1] eqn:E1. destruct (crun max l c1) as [c2 e2] eqn:E2. intros [= <- <-]. inversion Hp as [|? ? P1 P2]; subst.
    destruct (step_G _ _ _ _ _ _ P1 HG E1) as (G1 & A1). destruct (IH _ _ _ _ _ P2 G1 E2) as (G2 & A2). rewrite app_assoc. split.
    + destruct G2 as [? ? HJ]. constructor; auto. intros d. specialize (HJ d). rewrite <- app_assoc in HJ. 
      replace (gives d o ++ given d l) with (given d (o :: l)) in HJ; [exact HJ|]. unfold gives, given. cbn. rewrite app_nil_r. reflexivity.
    + intros [F1 F2] Ha. cbn in F2. apply A2; [exact F2|]. apply A1; auto.
Qed.
End Max.
