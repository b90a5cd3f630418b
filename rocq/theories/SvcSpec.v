(* What users of the service manager rely on, said in terms of the messages received and sent: [obs], in order. *)
From Coq Require Import ZArith List Bool.
From Verif Require Import SvcModel.
Import ListNotations.
Local Open Scope Z_scope.

(* the histories of a service manager: any configuration, any configured services, any messages *)
Definition history (cfg : config) (t : list obs) : Prop :=
  exists conf l, t = snd (run cfg l (start cfg conf)).
(* the same, with the messages that were received (and the circumstances) and the state that is reached *)
Definition reaches (cfg : config) (l : list (env * input)) (t : list obs) (s : state) : Prop :=
  exists conf, run cfg l (start cfg conf) = (s, t).

(* ---------------------------------------------------------------- C25: reservations *)
(* a reservation: process [fst y], for the lookup with correlation [snd y].  It ends when the process acknowledges, exits or
   withdraws everything, when the caller discards the lookup, or when a lookup reply can't be delivered to the process itself.
   (a discard of the nil correlation also ends the reservations of calls that have timed out) *)
Definition releases (x : obs) (y : handle * Z) : bool :=
  match x with
  | Rcv _ (I_ack _ h _) => h_ipc h =? h_ipc (fst y)
  | Rcv _ (I_exit pid) => pid =? h_pid (fst y)
  | Rcv _ (I_advertise h _ [] []) => h_valid h && (h_pid h =? h_pid (fst y))
  | Rcv _ (I_concurrent h _ Dir_reset _ _ _) => h_valid h && (h_ipc h =? h_ipc (fst y))
  | Rcv _ (I_discard _ c _) => (c =? snd y) || (c =? 0)
  | Eff (O_lost ipc) => ipc =? h_ipc (fst y)
  | _ => false
  end.
Definition reserve1 (l : list (handle * Z)) (x : obs) : list (handle * Z) :=
  let l := filter (fun y => negb (releases x y)) l in
  match x with
  | Eff (O_idle r (D_seq h) _) => l ++ [(h, r_corr r)]
  | _ => l
  end.
Definition reserved (t : list obs) : list (handle * Z) := fold_left reserve1 t [].

(* ---------------------------------------------------------------- C26: lookups *)
(* lookups that are asked, among those picked out by [f] *)
Definition asks (f : request -> bool) (x : obs) : bool := match x with Rcv _ (I_lookup r) => f r | _ => false end.
(* a reply to the lookup, or its removal on request *)
Definition answers (f : request -> bool) (x : obs) : bool :=
  match x with
  | Eff (O_idle r _ _) | Eff (O_absent r) | Eff (O_timeout r) | Eff (O_dropped r) => f r
  | _ => false
  end.
Definition count (f : obs -> bool) (t : list obs) : nat := length (filter f t).
(* the lookups that are queued, in order *)
Definition queued (s : state) : list request := map fst (s_pend s).

(* ---------------------------------------------------------------- the directory *)
(* the names under which a service is looked up *)
Definition names (cfg : config) (o : Z) : list Z := match g_routes cfg o with [] => [o] | l => l end.
(* routes are unambiguous for the services [U] *)
Definition unambiguous (cfg : config) (U : Z -> Prop) : Prop :=
  forall o o' n, U o -> U o' -> In n (o :: names cfg o) -> In n (names cfg o') -> o = o'.

(* (process, service) advertised by servers; a message from an ipc counts for the process that registered it first *)
Definition withdraw (p : handle -> bool) {A} (l : list (handle * A)) : list (handle * A) := filter (fun y => negb (p (fst y))) l.
Definition advertised1 (cfg : config) (l : list (handle * Z)) (x : obs) : list (handle * Z) :=
  match x with
  | Rcv _ (I_advertise h alias add rem) =>
      if negb (h_valid h) then l
      else match add, rem with
      | [], [] => withdraw (fun x => h_pid x =? h_pid h) l
      | _, _ => filter (fun y => negb ((h_ipc (fst y) =? h_ipc h) && memz (snd y) rem))
                       (l ++ map (fun o => (h, o)) (filter (g_allow cfg alias) add))
      end
  | Rcv _ (I_concurrent h _ Dir_reset _ _ _) => if h_valid h then withdraw (fun x => h_ipc x =? h_ipc h) l else l
  | Rcv _ (I_exit pid) => withdraw (fun x => h_pid x =? pid) l
  | Rcv _ (I_prepare _ hs) => withdraw (fun x => existsb (fun h => h_ipc h =? h_ipc x) hs) l
  | _ => l
  end.
Definition advertised (cfg : config) (t : list obs) : list (handle * Z) := fold_left (advertised1 cfg) t [].

(* (process, (service, order, hops)) advertised by gateways and other concurrent processes; a repeated advertise changes nothing *)
Definition knows (h : handle) (o : Z) (l : list (handle * (Z * Z * Z))) : bool :=
  existsb (fun y => (h_ipc (fst y) =? h_ipc h) && (fst (fst (snd y)) =? o)) l.
Definition offer (h : handle) (order : Z) (l : list (handle * (Z * Z * Z))) (x : Z * Z * Z) : list (handle * (Z * Z * Z)) :=
  let '(o, hops, _) := x in if knows h o l then l else l ++ [(h, (o, order, hops))].
Definition offered1 (cfg : config) (l : list (handle * (Z * Z * Z))) (x : obs) : list (handle * (Z * Z * Z)) :=
  match x with
  | Rcv _ (I_concurrent h alias dir order add rem) =>
      if negb (h_valid h) then l
      else match dir with
      | Dir_reset => withdraw (fun x => h_ipc x =? h_ipc h) l
      | Dir_instance => l
      | Dir_update =>
          filter (fun y => negb ((h_ipc (fst y) =? h_ipc h) && memz (fst (fst (snd y))) rem))
                 (fold_left (offer h order) (filter (fun x => g_allow cfg alias (fst (fst x))) add) l)
      end
  | Rcv _ (I_advertise h _ [] []) => if h_valid h then withdraw (fun x => h_pid x =? h_pid h) l else l
  | Rcv _ (I_exit pid) => withdraw (fun x => h_pid x =? pid) l
  | _ => l
  end.
Definition offered (cfg : config) (t : list obs) : list (handle * (Z * Z * Z)) := fold_left (offered1 cfg) t [].

(* the orders a user would expect: the latest that the process has given *)
Definition latest1 (cfg : config) (l : list (handle * (Z * Z * Z))) (x : obs) : list (handle * (Z * Z * Z)) :=
  match x with
  | Rcv _ (I_concurrent h _ (Dir_update | Dir_instance) order _ _) =>
      map (fun y => if h_ipc (fst y) =? h_ipc h then (fst y, (fst (fst (snd y)), order, snd (snd y))) else y) (offered1 cfg l x)
  | _ => offered1 cfg l x
  end.
Definition latest (cfg : config) (t : list obs) : list (handle * (Z * Z * Z)) := fold_left (latest1 cfg) t [].

(* every ipc belongs to one process *)
Definition handles (i : input) : list handle :=
  match i with
  | I_advertise h _ _ _ | I_concurrent h _ _ _ _ _ => [h]
  | _ => []
  end.
Definition owned (owner : Z -> Z) (l : list (env * input)) : Prop :=
  forall e i h, In (e, i) l -> In h (handles i) -> h_pid h = owner (h_ipc h).
(* the advertised services *)
Definition services_of (i : input) : list Z :=
  match i with
  | I_advertise _ _ add _ => add
  | I_concurrent _ _ _ _ add _ => map (fun x => fst (fst x)) add
  | _ => []
  end.
Definition advertise_only (U : Z -> Prop) (l : list (env * input)) : Prop :=
  forall e i o, In (e, i) l -> In o (services_of i) -> U o.

(* the services that are configured or advertised *)
Definition known (conf : list (Z * option Z * bool)) (l : list (env * input)) (o : Z) : Prop :=
  (exists t f, In (o, t, f) conf) \/ exists e i, In (e, i) l /\ In o (services_of i).
(* routes are unambiguous and every ipc belongs to one process *)
Definition proper (cfg : config) (conf : list (Z * option Z * bool)) (l : list (env * input)) : Prop :=
  unambiguous cfg (known conf l) /\ exists owner, owned owner l.

(* ---------------------------------------------------------------- C26: when a queued lookup is forgotten, and when it isn't *)
Definition no_prepare (t : list obs) : Prop := forall e ipc hs, ~ In (Rcv e (I_prepare ipc hs)) t.
Definition no_kill (t : list obs) : Prop := forall pid, ~ In (Eff (O_assassinate pid true)) t.
(* a history without shutdown, undeliverable replies, servers ordered to die, and discards of lookups that have been replied to *)
Definition calm (t : list obs) : Prop :=
  forall t1 x t2, t = t1 ++ x :: t2 ->
    match x with
    | Rcv _ (I_prepare _ _) | Eff (O_lost _) | Eff (O_assassinate _ true) => False
    | Rcv _ (I_discard _ c _) => c <> 0 /\ forall h, ~ In (h, c) (reserved t1)
    | _ => True
    end.

(* ---------------------------------------------------------------- C28: deadlines *)
(* (deadline, correlation): told to a caller, or given to a queued lookup *)
Definition announces (x : obs) : list (Z * Z) :=
  match x with
  | Eff (O_queued r (Some d)) | Eff (O_idle r (D_seq _) (Some d)) => [(d, r_corr r)]
  | _ => []
  end.
Definition announced (t : list obs) : list (Z * Z) := flat_map announces t.
(* those that remain: an acknowledge ends a call, an expired deadline is reported once *)
Definition due1 (l : list (Z * Z)) (x : obs) : list (Z * Z) :=
  match x with
  | Rcv e I_timeout => filter (fun y => e_now e <=? fst y) l
  | Rcv _ (I_ack c _ _) => filter (fun y => negb (snd y =? c)) l
  | _ => l ++ announces x
  end.
Definition due (t : list obs) : list (Z * Z) := fold_left due1 t [].
(* the correlations of which a timeout is reported *)
Definition times_out (x : out) (c : Z) : Prop :=
  match x with
  | O_timeout r => r_corr r = c
  | O_error k true => c_corr k = c
  | _ => False
  end.
(* the limits that apply to a lookup at its arrival: the caller's deadline, and the service's timeout from now *)
Definition limit (s : state) (e : env) (r : request) (z : Z) : Prop :=
  r_deadline r = Some z \/ exists vi v T, lookup_name (r_name r) s = Some vi /\ get (s_svc s) vi = Some v /\ v_timeout v = Some T /\ 0 < T /\ z = e_now e + T.
Definition earliest (P : Z -> Prop) (d : Z) : Prop := P d /\ forall z, P z -> d <= z.
