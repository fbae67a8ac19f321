(** Goroutines that run at the same time: each runs a program of Heap.v on the same heap,
    one access to memory at a time, in an order given by an arbitrary scheduler. *)
From Coq Require Import ZArith String List Bool.
From Verif Require Import Symbols Arith Box Ship Mtex Ttf Render Heap HeapSpec.
Import ListNotations.
Local Open Scope string_scope.

Section Conc.
Context {A : arith} {S X : Type}.
Notation heap := (heap A).

(** A goroutine: what it has still to do, and the state of its own font backend. *)
Record thread : Type := mk_thread { th_prog : prog A S X; th_state : S }.
(** How it ended, if it has. *)
Definition result (t : thread) : option (lres (X * S)) :=
  match th_prog t with
  | PRet x => Some (LOk (x, th_state t))
  | PPanic e => Some (LPanic e)
  | _ => None
  end.

(** What a step does to a node. *)
Inductive access : Type := Reads (a : loc) | Writes (a : loc) | Creates (a : loc).
Definition node_of (x : access) : loc := match x with Reads a | Writes a | Creates a => a end.

(** One step of a goroutine.  Allocation is atomic (the Go runtime's is). *)
Definition tstep (t : thread) (h : heap) : option (thread * heap * list access) :=
  let s := th_state t in
  match th_prog t with
  | PRet _ | PPanic _ => None
  | PRead a k =>
    match nth_error h a with
    | Some c => Some (mk_thread (k c) s, h, [Reads a])
    | None => Some (mk_thread (PPanic bad_addr) s, h, [Reads a])
    end
  | PWrite a c k => Some (mk_thread k s, update a c h, [Writes a])
  | PAlloc c k => Some (mk_thread (k (length h)) s, h ++ [c], [Creates (length h)])%list
  | PSize k => Some (mk_thread (k (length h)) s, h, [])
  | PCall m k =>
    match m s with
    | LOk (y, s') => Some (mk_thread (k y) s', h, [])
    | LPanic e => Some (mk_thread (PPanic e) s, h, [])
    end
  end.

(** All goroutines; [c_trace] lists what they did to nodes so far. *)
Record conf : Type := mk_conf { c_heap : heap; c_threads : list thread; c_trace : list (nat * access) }.
Definition start (h : heap) (ts : list thread) : conf := mk_conf h ts [].
(** Goroutine [i] takes a step (nothing happens if it has ended). *)
Definition cstep (c : conf) (i : nat) : conf :=
  match nth_error (c_threads c) i with
  | Some t =>
    match tstep t (c_heap c) with
    | Some (t', h', acc) => mk_conf h' (set_nth i t' (c_threads c)) (c_trace c ++ map (pair i) acc)%list
    | None => c
    end
  | None => c
  end.
(** The scheduler names the goroutine that takes the next step. *)
Definition exec (sched : list nat) (c : conf) : conf := fold_left cstep sched c.
(** The first [n] steps of an endless schedule. *)
Definition steps_of (sched : nat -> nat) (n : nat) : list nat := map sched (seq 0 n).
Definition always_again (sched : nat -> nat) (i : nat) : Prop := forall n, exists m, n <= m /\ sched m = i.
End Conc.

(** A goroutine that makes calls on expressions it parses itself (the histories of C94),
    with its own backend. *)
Section Calls.
Context {A : arith} {S : Type}.
Record calls : Type := mk_calls { g_be : @backend A S; g_ops : list (@op A); g_state : S }.
Variable U : Z -> bool.
Variable range : Symbols.gset -> list string.
Variable parse_float : string -> option (Arith.F A).
Definition calls_thread (g : calls) : thread :=
  mk_thread (h_run U range (g_be g) parse_float (g_ops g) []) (g_state g).
(** The same calls on trees, without any other goroutine. *)
Definition calls_alone (g : calls) : lres (list (@Box.tnode A) * list (list (@Ship.event A)) * S) :=
  t_run U range (g_be g) parse_float (g_ops g) [] (g_state g).
End Calls.

(** mtex/render.go:20-50 Render through pointers (see Render.render); every call makes a
    backend of its own.  The calls on the backend and on [dst] do not see the nodes. *)
Section Renders.
Context {A : arith} {Fnt : Type}.
Notation F := (Arith.F A).
Notation dst_call := (@dst_call A Fnt).
Variable U : Z -> bool.
Variable range : Symbols.gset -> list string.
Variable parse_float : string -> option F.
Variable sf : @sfnt A Fnt.
Variable default_fonts : @fonts Fnt.

Record request : Type := mk_request { q_dst : dst_call -> dst_result; q_expr : string; q_size : F; q_dpi : F; q_fonts : option (@fonts Fnt) }.
Definition h_render (q : request) : prog A (@ttf A Fnt) (list dst_call * outcome) :=
  let fnts := match q_fonts q with None => default_fonts | Some f => f end in
  r <~ h_mtex_parse U range (ttf_backend sf fnts) parse_float (q_expr q) (q_size q) (fofZ A 72) ;;
  match r with
  | (_, Some e) => PRet ([], RetErr ("could not parse math expression: " ++ e))
  | (a, None) =>
    st <~ h_ship_call f0 f0 a ;;
    _ <~ Heap.call (to_M (draw_all sf fnts (s_out st))) ;;
    x <~ look a ;;
    s <~ Heap.call (fun s => LOk (s, s)) ;;
    let c := mk_dst (fdiv A (t_width x) (fofZ A 72))
               (fdiv A (fceil A (fadd A (t_height x) (fmax A (t_depth x) f0))) (fofZ A 72)) (q_dpi q) (cnv_ops (t_canvas s)) in
    PRet ([c], ret_of (q_dst q c))
  end.
Definition render_thread (q : request) : thread := mk_thread (h_render q) (new_ttf new_canvas).
(** The same call without any other goroutine. *)
Definition render_alone (q : request) : option (list dst_call * outcome) :=
  render U range parse_float sf default_fonts (q_dst q) (q_expr q) (q_size q) (q_dpi q) (q_fonts q).
End Renders.
