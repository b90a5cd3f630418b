(* The properties of conversations: C66, C67, C68, and of the transaction they are in: C69 *)
From Coq Require Import ZArith List Bool Lia.
From Verif Require CodesModel CtxModel CtxSpec ConvTx.
From Verif Require Import ConvModel ConvSpec ConvProofs ConvInv ConvShape ConvMove ConvKeep ConvKept ConvAll ConvAct ConvOpen ConvTold ConvReach ConvUse ConvStuck.
Import ListNotations.
Local Open Scope Z_scope.

(* ------------------------------------------------------------------ C66: the control of the conversation *)
(* without the control tpsend is refused, with it tprecv is, and nothing has happened *)
Theorem C66_send_refused : forall l w h x d c ro data f o ev w', runs l w h -> In (d, c) (opened x h) -> control x c h = false -> asks x (Tpsend d ro data f) w o ev w' -> o <> O_ignored -> o = O_error TPEPROTO /\ ev = [] /\ unchanged w w'.
Proof. exact use_send_proto. Qed.
Theorem C66_receive_refused : forall l w h x d c nb sg mm o ev w', runs l w h -> In (d, c) (opened x h) -> control x c h = true -> asks x (Tprecv d nb sg mm) w o ev w' -> o <> O_ignored -> o = O_error TPEPROTO /\ ev = [] /\ unchanged w w'.
Proof. exact use_recv_proto. Qed.
(* never do both have it *)
Theorem C66_one : forall l w h x y d d' c, runs l w h -> between x y c h -> In (d, c) (opened x h) -> In (d', c) (opened y h) -> ~ (control x c h = true /\ control y c h = true).
Proof. exact use_one. Qed.
(* the one that has it has got everything that the other has sent *)
Theorem C66_all_received : forall l w h x y d c, runs l w h -> between x y c h -> In (d, c) (opened y h) -> control y c h = true -> got y c h = sent x c h.
Proof. exact use_control_all. Qed.
(* at the start: the one that connects has it, unless it gave it to the service, and the service is told *)
Theorem C66_connect : forall l w h x sig d ev w', runs l w h -> asks x (Wait sig) w (O_descriptor d) ev w' ->
  exists c y g data, ev = [Opened c d (negb g)] /\ connected x y c h /\ sent x c h = [(g, data)] /\ (exists e b, In (Opened c e b) (of_proc y h)) /\ ~ In d (map fst (opened x h)).
Proof. intros l w h x sig d ev w' R A. exact (use_connect l w h x sig d _ ev w' R A eq_refl). Qed.
Theorem C66_invoked : forall l w h y d so data ev w', runs l w h -> asks y Pump w (O_invoked d so data) ev w' ->
  exists c x r, ev = [Opened c d so; Got c so data true] /\ connected x y c h /\ sent x c h = (so, data) :: r /\ got y c h = [] /\ ~ In d (map fst (opened y h)).
Proof. intros l w h y d so data ev w' R A. exact (use_invoked l w h y d so data _ ev w' R A eq_refl). Qed.
(* afterwards: by a tpsend that gives it away, a tprecv that tells so, and in no other way, but for TPEOTYPE *)
Theorem C66_told : forall l w h x d c i o ev w', runs l w h -> In (d, c) (opened x h) -> on i d -> asks x i w o ev w' ->
  match i, o with
  | Tpsend _ ro data None, O_ok => ev = [Sent c ro data]
  | Tprecv _ _ _ _, O_received so data => ev = [Got c so data true]
  | Tprecv _ _ _ _, O_error code => code = TPEOTYPE \/ (forall g z, ~ In (Got c g z true) ev /\ ~ In (Got c g z false) ev)
  | _, _ => forall v, In v ev -> match v with Closed c' d' => c' = c /\ d' = d | _ => False end
  end.
Proof. exact use_told. Qed.

(* ------------------------------------------------------------------ C67: what is sent *)
(* what one gets is what the other has sent, in the order it was sent, nothing twice and nothing left out *)
Theorem C67_order : forall l w h x y c, runs l w h -> between x y c h -> prefix (got y c h) (sent x c h).
Proof. exact use_order. Qed.
(* it gets the next, once it has arrived, unless the other has disconnected, or the service manager has said that the server is gone *)
Theorem C67_next : forall l w h x y d c g data r nb sg o ev w', runs l w h -> between x y c h -> In (d, c) (opened y h) -> control y c h = false -> arrived x y w -> sent x c h = got y c h ++ (g, data) :: r ->
  asks y (Tprecv d nb sg false) w o ev w' -> o <> O_ignored ->
  (o = O_received g data /\ ev = [Got c g data true]) \/ (o = O_event TPEV_DISCONIMM 0 /\ disconnected x c h) \/ (o = O_event TPEV_SVCERR 0 /\ In (Died y c) l).
Proof. exact use_next. Qed.
(* an event that ends the conversation has its cause; from tprecv, the return is told only after all the data *)
Theorem C67_receive_event : forall l w h x y d c nb sg mm e user ev w', runs l w h -> between x y c h -> In (d, c) (opened y h) -> asks y (Tprecv d nb sg mm) w (O_event e user) ev w' -> end_of l h x y c e user /\ ev = [Closed c d].
Proof. exact use_recv_event. Qed.
Theorem C67_send_event : forall l w h x y d c ro data f e user ev w', runs l w h -> between x y c h -> In (d, c) (opened y h) -> asks y (Tpsend d ro data f) w (O_event e user) ev w' -> end_of_send l h x y c e user /\ ev = [Closed c d].
Proof. exact use_send_event. Qed.
(* the return of the service is told, with its user code, after all the data *)
Theorem C67_return_told : forall l w h x y d c ou user data nb sg o ev w', runs l w h -> connected x y c h -> In (d, c) (opened x h) -> control x c h = false -> returned y c ou user data h -> arrived y x w -> got x c h = sent y c h -> ~ In (Died x c) l ->
  asks x (Tprecv d nb sg false) w o ev w' -> o <> O_ignored -> o = told_return ou user /\ ev = [Closed c d].
Proof. exact use_return_told. Qed.

(* ------------------------------------------------------------------ C68: descriptors, and the end *)
(* a descriptor stands for one conversation, and one for it *)
Theorem C68_distinct : forall l w h x, runs l w h -> NoDup (map fst (opened x h)) /\ (forall d d' c, In (d, c) (opened x h) -> In (d', c) (opened x h) -> d = d').
Proof. exact use_distinct. Qed.
(* one that isn't open, or isn't any more, is refused, and nothing has happened *)
Theorem C68_bad_descriptor : forall l w h x d i o ev w', runs l w h -> ~ In d (map fst (opened x h)) -> on i d -> asks x i w o ev w' -> o <> O_ignored -> o = O_error TPEBADDESC /\ ev = [] /\ unchanged w w'.
Proof. exact use_bad. Qed.
(* a call on one leaves the others *)
Theorem C68_others : forall l w h x d c i o ev w', runs l w h -> In (d, c) (opened x h) -> on i d -> asks x i w o ev w' -> o <> O_ignored ->
  opened x (h ++ [(x, i, o, ev)]) = opened x h \/ (opened x (h ++ [(x, i, o, ev)]) = filter (fun y => negb (fst y =? d)) (opened x h) /\ In (Closed c d) ev).
Proof. exact use_only. Qed.
(* tpdiscon is for the one that has connected: the descriptor is then closed, also when the other can't be reached *)
Theorem C68_disconnect : forall l w h x y d c f o ev w', runs l w h -> connected x y c h -> In (d, c) (opened x h) -> asks x (Tpdiscon d f) w o ev w' -> o <> O_ignored -> o = match f with None => O_ok | Some code => O_error code end /\ ev = [Closed c d].
Proof. intros l w h x y d c f o ev w' R C O A N. destruct (called_own l w h x c y R C) as [-> _]. pose proof (use_discon l w h _ d c f o ev w' R O A N) as H. rewrite Z.eqb_refl in H. exact H. Qed.
Theorem C68_disconnect_refused : forall l w h x y d c f o ev w', runs l w h -> connected y x c h -> In (d, c) (opened x h) -> asks x (Tpdiscon d f) w o ev w' -> o <> O_ignored -> o = O_error TPEBADDESC /\ ev = [] /\ unchanged w w'.
Proof.
  intros l w h x y d c f o ev w' R C O A N. destruct (called_own l w h y c x R C) as [-> _]. destruct (two l w h (fst c) x c R (or_introl C)) as (_ & _ & _ & NE & _). pose proof (use_discon l w h x d c f o ev w' R O A N) as H. apply Z.eqb_neq in NE. rewrite NE in H. exact H.
Qed.
(* the service is told, with the next call, once it has arrived *)
Theorem C68_disconnect_told : forall l w h x y d c i o ev w', runs l w h -> connected x y c h -> In (d, c) (opened y h) -> disconnected x c h -> arrived x y w ->
  (if control y c h then exists ro data f, i = Tpsend d ro data f else exists nb sg mm, i = Tprecv d nb sg mm) -> asks y i w o ev w' -> o <> O_ignored -> o = O_event TPEV_DISCONIMM 0 /\ ev = [Closed c d].
Proof. exact use_disc_told. Qed.
(* the return of the service closes its conversation *)
Theorem C68_return_closes : forall l w h x c ou user data f o ev w' u ou' data', runs l w h -> asks x (Tpreturn ou user data f) w o ev w' -> In (Back c ou' u data') ev ->
  o = O_ok /\ (forall d, ~ In (d, c) (opened x (h ++ [(x, Tpreturn ou user data f, o, ev)]))) /\ ou' = ou /\ u = user /\ data' = data.
Proof. exact use_returns. Qed.
(* tpconnect waits, and is interrupted, only until the service is invoked *)
Theorem C68_connect_waits : forall l w h x sig o ev w', runs l w h -> asks x (Wait sig) w o ev w' -> o = O_waits \/ o = O_error TPGOTSIG -> exists c y, connected x y c h /\ (arrived y x w -> forall e b, ~ In (Opened c e b) (of_proc y h)).
Proof. exact use_connect_waits. Qed.

(* ------------------------------------------------------------------ examples, and what doesn't hold *)
Definition wof (l : list action) : world := fst (acts l world0).
Definition hof (l : list action) : list entry := snd (acts l world0).
Lemma run_it l : all_ordinaryb l world0 [] = true -> runs l (wof l) (hof l).
Proof. exact (runs_of l). Qed.
Lemma asks_of x i w o ev : snd (act (Do x i) w) = [(x, i, o, ev)] -> asks x i w o ev (fst (act (Do x i) w)).
Proof. intros E. unfold asks. rewrite <- E. apply surjective_pairing. Qed.

Definition c1 : corr := (1, 1).
(* 1 connects to a service at 2, and has the control *)
Definition open12 : list action := [Do 1 (Tpconnect true false 10 (Found 2 None)); Deliver 1 2; Do 2 Pump; Deliver 2 1; Do 1 (Wait false)].
(* 1 sends 11 and passes the control with 12, 2 takes both *)
Definition passed : list action := open12 ++ [Do 1 (Tpsend 0 false 11 None); Do 1 (Tpsend 0 true 12 None); Deliver 1 2; Deliver 1 2; Do 2 (Tprecv 0 false false false); Do 2 (Tprecv 0 false false false)].
(* 2 sends 21, and returns with it *)
Definition back : list action := passed ++ [Do 2 (Tpsend 0 false 21 None); Do 2 (Tpreturn Success 7 22 false); Deliver 2 1; Deliver 2 1].

Example C66_nontrivial :
  (runs open12 (wof open12) (hof open12) /\ connected 1 2 c1 (hof open12) /\ In (0, c1) (opened 1 (hof open12)) /\ In (0, c1) (opened 2 (hof open12)) /\ control 1 c1 (hof open12) = true /\ control 2 c1 (hof open12) = false) /\
  (runs passed (wof passed) (hof passed) /\ control 1 c1 (hof passed) = false /\ control 2 c1 (hof passed) = true /\ got 2 c1 (hof passed) = [(false, 10); (false, 11); (true, 12)]) /\
  asks 2 (Tprecv 0 false false false) (wof passed) (O_error TPEPROTO) [] (fst (act (Do 2 (Tprecv 0 false false false)) (wof passed))) /\
  asks 1 (Tpsend 0 false 5 None) (wof passed) (O_error TPEPROTO) [] (fst (act (Do 1 (Tpsend 0 false 5 None)) (wof passed))).
Proof.
  split; [split; [apply run_it; vm_compute; reflexivity|vm_compute; tauto]|]. split; [split; [apply run_it; vm_compute; reflexivity|vm_compute; tauto]|]. split; apply asks_of; vm_compute; reflexivity.
Qed.
Example C67_nontrivial :
  runs back (wof back) (hof back) /\ connected 1 2 c1 (hof back) /\ In (0, c1) (opened 1 (hof back)) /\ control 1 c1 (hof back) = false /\ arrived 2 1 (wof back) /\ returned 2 c1 Success 7 22 (hof back) /\ sent 2 c1 (hof back) = got 1 c1 (hof back) ++ [(false, 21)] /\
  asks 1 (Tprecv 0 false false false) (wof back) (O_received false 21) [Got c1 false 21 true] (fst (act (Do 1 (Tprecv 0 false false false)) (wof back))) /\
  asks 1 (Tprecv 0 false false false) (wof (back ++ [Do 1 (Tprecv 0 false false false)])) (O_event TPEV_SVCSUCC 7) [Closed c1 0] (fst (act (Do 1 (Tprecv 0 false false false)) (wof (back ++ [Do 1 (Tprecv 0 false false false)])))).
Proof.
  split; [apply run_it; vm_compute; reflexivity|]. split; [vm_compute; tauto|]. split; [vm_compute; tauto|]. split; [reflexivity|]. split; [intros m; vm_compute; tauto|]. split; [eexists; vm_compute; split; [do 8 right; left; reflexivity|cbn; tauto]|]. split; [reflexivity|]. split; apply asks_of; vm_compute; reflexivity.
Qed.
Definition gone_ : list action := open12 ++ [Do 1 (Tpdiscon 0 None); Deliver 1 2].
Example C68_nontrivial :
  runs gone_ (wof gone_) (hof gone_) /\ In (0, c1) (opened 2 (hof gone_)) /\ opened 1 (hof gone_) = [] /\ disconnected 1 c1 (hof gone_) /\ arrived 1 2 (wof gone_) /\
  asks 2 (Tprecv 0 false false false) (wof gone_) (O_event TPEV_DISCONIMM 0) [Closed c1 0] (fst (act (Do 2 (Tprecv 0 false false false)) (wof gone_))) /\
  asks 2 (Tpdiscon 0 None) (wof gone_) (O_error TPEBADDESC) [] (fst (act (Do 2 (Tpdiscon 0 None)) (wof gone_))) /\
  asks 1 (Tpsend 0 true 5 None) (wof gone_) (O_error TPEBADDESC) [] (fst (act (Do 1 (Tpsend 0 true 5 None)) (wof gone_))).
Proof.
  split; [apply run_it; vm_compute; reflexivity|]. split; [vm_compute; tauto|]. split; [reflexivity|]. split; [exists 0; vm_compute; tauto|]. split; [intros m; vm_compute; tauto|]. split; [|split]; apply asks_of; vm_compute; reflexivity.
Qed.

(* a tprecv that fails with TPEOTYPE takes the control without telling: the caller can't know that it is to send *)
Definition typed : list action := [Do 1 (Tpconnect false true 10 (Found 2 None)); Deliver 1 2; Do 2 Pump; Deliver 2 1; Do 1 (Wait false); Do 2 (Tpsend 0 true 21 None); Deliver 2 1].
Theorem C66_type_mismatch_refuted : exists l w h x d c i ev w', runs l w h /\ In (d, c) (opened x h) /\ control x c h = false /\ asks x i w (O_error TPEOTYPE) ev w' /\ control x c (h ++ [(x, i, O_error TPEOTYPE, ev)]) = true.
Proof.
  exists typed, (wof typed), (hof typed), 1, 0, c1, (Tprecv 0 false false true), [Got c1 true 21 false], (fst (act (Do 1 (Tprecv 0 false false true)) (wof typed))).
  split; [apply run_it; vm_compute; reflexivity|]. split; [vm_compute; tauto|]. split; [reflexivity|]. split; [apply asks_of; vm_compute; reflexivity|vm_compute; reflexivity].
Qed.
(* and the return that fails with TPEOTYPE closes the conversation without telling how the service returned *)
Definition typed2 : list action := [Do 1 (Tpconnect false true 10 (Found 2 None)); Deliver 1 2; Do 2 Pump; Deliver 2 1; Do 1 (Wait false); Do 2 (Tpreturn Fail 7 21 false); Deliver 2 1].
Theorem C67_type_mismatch_refuted : exists l w h x y d c i w' user data, runs l w h /\ connected x y c h /\ In (d, c) (opened x h) /\ returned y c Fail user data h /\ asks x i w (O_error TPEOTYPE) [Closed c d] w'.
Proof.
  exists typed2, (wof typed2), (hof typed2), 1, 2, 0, c1, (Tprecv 0 false false true), (fst (act (Do 1 (Tprecv 0 false false true)) (wof typed2))), 7, 21.
  split; [apply run_it; vm_compute; reflexivity|]. split; [vm_compute; tauto|]. split; [vm_compute; tauto|]. split; [eexists; vm_compute; split; [do 3 right; left; reflexivity|cbn; tauto]|apply asks_of; vm_compute; reflexivity].
Qed.
(* a server that goes back to the message pump with a conversation that it has connected: the pump takes what the other sends, and it is lost *)
Definition lossy : list action := [Do 1 (Tpconnect true false 10 (Found 2 None)); Deliver 1 2; Do 2 Pump; Deliver 2 1; Do 1 (Wait false);
  Do 2 (Tpconnect false true 20 (Found 3 None)); Deliver 2 3; Do 3 Pump; Deliver 3 2; Do 2 (Wait false); Do 3 (Tpsend 0 false 31 None); Deliver 3 2; Do 2 (Tpreturn Success 0 0 false); Do 2 Pump;
  Do 3 (Tpsend 0 false 32 None); Do 1 (Tpconnect true false 11 (Found 2 None)); Deliver 1 2; Do 2 Pump; Deliver 3 2; Do 2 (Tprecv 1 false false false)].
Theorem C67_pump_refuted : exists l w h x y c, acts l world0 = (w, h) /\ (forall p so ro data t f, In (Do p (Tpconnect so ro data (Found t f))) l -> t <> p) /\ between x y c h /\ got y c h = [(false, 32)] /\ sent x c h = [(false, 31); (false, 32)].
Proof.
  exists lossy, (wof lossy), (hof lossy), 3, 2, (2, 1). split; [apply surjective_pairing|]. split; [|split; [right; vm_compute; tauto|split; vm_compute; reflexivity]].
  intros p so ro data t f I. unfold lossy in I. cbn [In] in I. repeat (destruct I as [I|I]; [try discriminate I; try (injection I as <- _ _ _ <- _; discriminate)|]). destruct I.
Qed.

(* a signal in tprecv ends the conversation, the other is never told: it waits for ever *)
Definition signalled : list action := passed ++ [Do 1 (Tprecv 0 false true false); Do 2 (Tpsend 0 true 21 None)].
Theorem C68_signal_refuted : exists l w h x y d c, runs l w h /\ connected x y c h /\ In (x, Tprecv d false true false, O_error TPGOTSIG, [Closed c d]) h /\ In (d, c) (opened y h) /\ control y c h = false /\
  forall l' w' h' mm o ev w'', acts l' w = (w', h') -> all_ordinary l' w h -> ~ In (Died y c) l' -> In (d, c) (opened y (h ++ h')) -> control y c (h ++ h') = false -> asks y (Tprecv d false false mm) w' o ev w'' -> o = O_waits \/ o = O_ignored.
Proof.
  assert (R : runs signalled (wof signalled) (hof signalled)) by (apply run_it; vm_compute; reflexivity).
  exists signalled, (wof signalled), (hof signalled), 1, 2, 0, c1. split; [exact R|]. split; [vm_compute; tauto|]. split; [vm_compute; tauto|]. split; [vm_compute; tauto|]. split; [reflexivity|]. intros l' w' h' mm o ev w''.
  apply (use_stuck signalled (wof signalled) (hof signalled) c1 2 R).
  - vm_compute. tauto.
  - intros d B. vm_compute in B. exact B.
  - vm_compute. reflexivity.
  - vm_compute. reflexivity.
  - unfold signalled, passed, open12. cbn [In app]. intros B. repeat (destruct B as [B|B]; [discriminate B|]). exact B.
Qed.
(* tpreturn closes another conversation, that the service has connected when its own had been disconnected; the other isn't told *)
Definition reused : list action := open12 ++ [Do 1 (Tpdiscon 0 None); Deliver 1 2; Do 2 (Tprecv 0 false false false); Do 2 (Tpconnect true false 20 (Found 3 None)); Deliver 2 3; Do 3 Pump; Deliver 3 2; Do 2 (Wait false)].
Theorem C68_return_other_refuted : exists l w h x y z c c' d ou user data ev w', runs l w h /\ connected x y c h /\ connected y z c' h /\ c <> c' /\ In (d, c') (opened y h) /\ asks y (Tpreturn ou user data false) w O_ok ev w' /\ In (Back c ou user data) ev /\ In (Closed c' d) ev /\ (forall m, ~ In (y, z, m) (w_net w')).
Proof.
  exists reused, (wof reused), (hof reused), 1, 2, 3, c1, (2, 1), 0, Success, 7, 22, [Closed (2, 1) 0; Back c1 Success 7 22], (fst (act (Do 2 (Tpreturn Success 7 22 false)) (wof reused))).
  split; [apply run_it; vm_compute; reflexivity|]. split; [vm_compute; tauto|]. split; [vm_compute; tauto|]. split; [discriminate|]. split; [vm_compute; tauto|]. split; [apply asks_of; vm_compute; reflexivity|]. split; [right; left; reflexivity|]. split; [left; reflexivity|]. intros m. vm_compute. intros [B|[]]. discriminate B.
Qed.
(* tpconnect goes on to wait although it has been told that the server is gone *)
Definition dead : list action := [Do 1 (Tpconnect true false 10 (Found 2 None)); Died 1 c1].
Theorem C68_connect_died_refuted : exists l w h x y c w', runs l w h /\ connected x y c h /\ In (Died x c) l /\ arrived y x w /\ asks x (Wait false) w O_waits [] w' /\ w_proc w' x = w_proc w x.
Proof.
  exists dead, (wof dead), (hof dead), 1, 2, c1, (fst (act (Do 1 (Wait false)) (wof dead))). split; [apply run_it; vm_compute; reflexivity|]. split; [vm_compute; tauto|]. split; [right; left; reflexivity|]. split; [intros m; vm_compute; intros [B|[]]; discriminate B|]. split; [apply asks_of; vm_compute; reflexivity|vm_compute; reflexivity].
Qed.

(* ------------------------------------------------------------------ C69: the transaction *)
(* a transaction that a conversation was connected in can't be committed: for as long as it is the current one tx_commit is refused, whatever the process does, also when the conversation has ended *)
Import CodesModel CtxModel CtxSpec ConvTx.
Theorem C69_commit_refused : forall e d f c k x so ro data t fails us, reach e d f c -> x <> 0 -> x < c_next c -> (forall u, In u (removelast (c_txs c)) -> x_id (t_id u) <> x) -> in_tx c = x -> xorb so ro = true ->
  (forall i, In (Tx i) us -> not_joined x i /\ forall s, i <> Reply k s) ->
  let c' := fst (run e (program (Conv (ConvModel.Tpconnect so ro data (ConvModel.Found t fails)) false k :: us)) c) in in_tx c' = x -> step e Commit c' = (c', RTx tx_protocol).
Proof. exact conv_blocks. Qed.
(* so that a conversation that has ended is no longer in the way of tx_commit doesn't hold *)
Definition w_e : env := mk_env (fun _ => xa_ok) (fun _ => []) (fun _ => (SCommit, tx_ok)) (fun _ => tx_ok).
Definition w_us : list use := [Conv (ConvModel.Tpconnect true false 10 (ConvModel.Found 2 None)) false 5; Conv (ConvModel.Wait false) false 5; Conv (ConvModel.Tpdiscon 0 None) false 5].
Theorem C69_ended_refuted : exists e d f c us, reach e d f c /\ in_tx c <> 0 /\ snd (step e Commit c) = RTx tx_ok /\
  us = [Conv (ConvModel.Tpconnect true false 10 (ConvModel.Found 2 None)) false 5; Conv (ConvModel.Wait false) false 5; Conv (ConvModel.Tpdiscon 0 None) false 5] /\
  let c' := fst (run e (program us) c) in in_tx c' = in_tx c /\ step e Commit c' = (c', RTx tx_protocol).
Proof.
  exists w_e, [], [7; 8], (fst (run w_e [Begin] (init [] [7; 8]))), w_us. split; [exists [Begin]; reflexivity|]. split; [vm_compute; discriminate|]. split; [vm_compute; reflexivity|]. split; [reflexivity|]. split; vm_compute; reflexivity.
Qed.
(* without the transaction, TPNOTRAN, nothing is in the way *)
Theorem C69_no_transaction : forall e c so ro data t fails k us, run e (program (Conv (ConvModel.Tpconnect so ro data (ConvModel.Found t fails)) true k :: us)) c = run e (program us) c.
Proof. intros. cbn [program flat_map calls_of]. rewrite andb_false_r. reflexivity. Qed.
Example C69_nontrivial : let c := fst (run w_e [Begin] (init [] [7; 8])) in
  reach w_e [] [7; 8] c /\ in_tx c = 1 /\ 1 < c_next c /\ (forall u, In u (removelast (c_txs c)) -> x_id (t_id u) <> 1) /\ (forall i, In (Tx i) [Tx (Reply 6 m_ok); Conv (ConvModel.Tpdiscon 0 None) false 5] -> not_joined 1 i /\ forall s, i <> Reply 5 s) /\
  in_tx (fst (run w_e (program [Conv (ConvModel.Tpconnect true false 10 (ConvModel.Found 2 None)) false 5; Tx (Reply 6 m_ok); Conv (ConvModel.Tpdiscon 0 None) false 5]) c)) = 1.
Proof.
  cbv zeta. split; [exists [Begin]; reflexivity|]. split; [reflexivity|]. split; [vm_compute; reflexivity|]. split; [intros u []|]. split; [|reflexivity]. intros i [E|[E|[]]]; [|discriminate E]. injection E as <-. split; [exact I|intros s E; discriminate E].
Qed.
Print Assumptions C66_send_refused.
Print Assumptions C66_receive_refused.
Print Assumptions C66_one.
Print Assumptions C66_all_received.
Print Assumptions C66_connect.
Print Assumptions C66_invoked.
Print Assumptions C66_told.
Print Assumptions C67_order.
Print Assumptions C67_next.
Print Assumptions C67_receive_event.
Print Assumptions C67_send_event.
Print Assumptions C67_return_told.
Print Assumptions C68_distinct.
Print Assumptions C68_bad_descriptor.
Print Assumptions C68_others.
Print Assumptions C68_disconnect.
Print Assumptions C68_disconnect_refused.
Print Assumptions C68_disconnect_told.
Print Assumptions C68_return_closes.
Print Assumptions C68_connect_waits.
Print Assumptions C66_type_mismatch_refuted.
Print Assumptions C67_type_mismatch_refuted.
Print Assumptions C67_pump_refuted.
Print Assumptions C68_signal_refuted.
Print Assumptions C68_return_other_refuted.
Print Assumptions C68_connect_died_refuted.
Print Assumptions C69_commit_refused.
Print Assumptions C69_ended_refuted.
Print Assumptions C69_no_transaction.
