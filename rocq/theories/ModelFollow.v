(** Model of the handlers around a callback: the options [follow] and [notify-close].
    Source: crates/common/src/runtime/handlers.rs and crates/common/src/runtime/rx.rs:359-383. *)
From Verif Require Import Bytes ModelAbe ModelEval ModelPkt ModelStore ModelPred ModelQText ModelLns ModelWatch.

(** A packet as a callback sees it: the stamp under which it is stored, none for one that is not from the store
    (netpkt/mod.rs [recv]), and its bytes. *)
Definition seen_pkt : Type := (option N * bytes)%type.
(** handlers.rs:35-40 [PktStreamHandler]: both functions get the transaction that [get_reader] gives.  The flag says
    that the callback breaks.  What else a callback does is part of its state. *)
Record handler (C : Type) := mkHandler { h_pkt : db -> C -> seen_pkt -> C * bool; h_stopped : db -> C -> StopReason -> C }.
Arguments mkHandler {C}. Arguments h_pkt {C}. Arguments h_stopped {C}.

(** pkt/src/netpkt/header.rs:130-141, the flags of a packet: its fourth byte *)
Definition LINKED_IN_FUTURE_PKT : N := 2.
Definition LINKED_IN_PREVIOUS_PKT : N := 4.
(** netpkt/reroute.rs:14-62 (C57), bitflags [insert] and [remove]: another flags byte *)
Definition map_flags (f : N -> N) (b : bytes) : bytes := takeN 3 b ++ map f (sliceN 3 4 b) ++ dropN 4 b.
Definition flag_insert (m f : N) : N := N.lor f m.
Definition flag_remove (m f : N) : N := N.ldiff f m.
Definition not_linked (f : N) : N := flag_remove LINKED_IN_PREVIOUS_PKT (flag_remove LINKED_IN_FUTURE_PKT f).
Definition linked_in (f : N) : N := flag_remove LINKED_IN_PREVIOUS_PKT (flag_insert LINKED_IN_FUTURE_PKT f).

(** handlers.rs:108-122: the links.  A failed read can not happen here; it is logged, as a missing packet is. *)
Fixpoint follow_links {C} (h : handler C) (d : db) (ls : list Link) (c : C) : C * bool :=
  match ls with
  | [] => (c, false)
  | l :: r =>
      match read d (snd l) with
      | Some (s, b) => let '(c', brk) := h_pkt h d c (Some s, map_flags linked_in b) in if brk then (c', true) else follow_links h d r c'
      | None => follow_links h d r c
      end
  end.
(** handlers.rs:88-125 [FollowHandler]: it has no [stopped], so the default, :39, which does nothing.  A packet that
    is not one has no links here.  The transaction is that before the first call: within a callback of [process]
    there is no other (ModelWatch). *)
Definition follow_handler {C} (h : handler C) : handler C :=
  mkHandler
    (fun d c r =>
       let '(c', brk) := h_pkt h d c (fst r, map_flags not_linked (snd r)) in
       if brk then (c', true)
       else match view (snd r) with Ok p => follow_links h d (pkt_links p) c' | _ => (c', false) end)
    (fun _ c _ => c).
(** rx.rs:359-383 [watch_query]: the handler that is registered *)
Definition watch_handler {C} (q : TQuery) (h : handler C) : outcome QErr (handler C) :=
  obind (get_option q (str "follow")) (fun f => Ok (match f with Some _ => follow_handler h | None => h end)).

(** handlers.rs:61-87 [NotifyClose]: the state has the packet still to be given at the end.  A break is ignored. *)
Definition notify_origin (q : TQuery) (origin : bytes) : option bytes :=
  match get_option q (str "notify-close") with Ok (Some _) => Some origin | _ => None end.
Definition notify_close {C} (h : handler C) : handler (C * option bytes) :=
  mkHandler
    (fun d '(c, o) r => let '(c', brk) := h_pkt h d c r in ((c', o), brk))
    (fun d '(c, o) reason =>
       let c' := match o with Some echo => fst (h_pkt h d c (None, echo)) | None => c end in
       (h_stopped h d c' reason, None)).
(** cli/linkspace/src/multi_watch.rs:99-101: the handler of a watch asked for by the packet [origin], and its state *)
Definition multi_watch_handler {C} (q : TQuery) (h : handler C) (origin : bytes) (c : C) : outcome QErr (handler (C * option bytes) * (C * option bytes)) :=
  obind (watch_handler q (notify_close h)) (fun h' => Ok (h', (c, notify_origin q origin))).
