(** Model of Fonts() in font/lm/lm.go:22-63 and font/liberation/liberation.go:22-61
    (the same code with other font files), called by any number of goroutines,
    with sync.Once spelled out.

    sync.Once is the standard library's: Do loads [done] atomically; if it is 0 it
    locks the mutex, tests [done] again, and if it is still 0 runs the function
    with a deferred atomic store of 1 to [done]; the mutex is unlocked by another
    defer.  Each step below is one atomic action; goroutines interleave
    arbitrarily.  Memory is sequentially consistent; theorem C51_no_race shows that
    the only unsynchronised variable is never accessed by two goroutines at once,
    which is what Go's memory model asks for. *)
From Coq Require Import ZArith String Ascii List Bool.
From Verif Require Import Ttf.
Import ListNotations.

Section Once.
Context {Fnt : Type}.
(** sfnt.Parse of the four embedded files: 0 regular, 1 italic, 2 bold, 3 bold
    italic; None is an error. *)
Variable parse : nat -> option Fnt.

(** A goroutine's place in Fonts(). *)
Inductive pc : Type :=
  | Idle                              (* not in a call *)
  | Load                              (* Once.Do: load done *)
  | Lock                              (* doSlow: m.Lock() *)
  | Check                             (* doSlow: done == 0 ? *)
  | Parse (i : nat) (got : list Fnt)  (* lm.go:30-48: about to parse file i; the results so far *)
  | Assign (got : list Fnt)           (* lm.go:50-56: fnts = &ttf.Fonts{...} *)
  | Store (panicking : bool)          (* deferred store of done *)
  | Unlock (panicking : bool)         (* deferred unlock *)
  | Read.                             (* lm.go:59: return fnts *)

(** What a call did: returned a pointer (None is nil) or panicked. *)
Inductive result : Type := Returned (p : option nat) | Panicked.

Record world : Type := mk_world {
  w_done : bool;                      (* Once.done *)
  w_mutex : option nat;               (* Once.m: the goroutine that holds it *)
  w_fnts : option nat;                (* fnts: nil or an address *)
  w_heap : list (@fonts Fnt);         (* the ttf.Fonts values allocated so far, by address *)
  w_parsed : list nat;                (* log: files given to sfnt.Parse *)
  w_results : list (nat * result);    (* log: finished calls, by goroutine *)
  w_pc : nat -> pc }.                 (* all goroutines *)

Definition start : world := mk_world false None None [] [] [] (fun _ => Idle).

Definition upd (f : nat -> pc) (t : nat) (p : pc) : nat -> pc := fun u => if Nat.eqb u t then p else f u.
Definition goto (t : nat) (p : pc) (w : world) : world :=
  mk_world (w_done w) (w_mutex w) (w_fnts w) (w_heap w) (w_parsed w) (w_results w) (upd (w_pc w) t p).

(** lm.go:50-56: the value built from the parsed files *)
Definition build (got : list Fnt) : @fonts Fnt :=
  mk_fonts (nth_error got 0) (nth_error got 0) (nth_error got 1) (nth_error got 2) (nth_error got 3).

(** One step of goroutine [t]. *)
Inductive step (t : nat) (w : world) : world -> Prop :=
  | s_call : w_pc w t = Idle -> step t w (goto t Load w)
  | s_load_done : w_pc w t = Load -> w_done w = true -> step t w (goto t Read w)
  | s_load_not : w_pc w t = Load -> w_done w = false -> step t w (goto t Lock w)
  | s_lock : w_pc w t = Lock -> w_mutex w = None ->
      step t w (mk_world (w_done w) (Some t) (w_fnts w) (w_heap w) (w_parsed w) (w_results w) (upd (w_pc w) t Check))
  | s_check_done : w_pc w t = Check -> w_done w = true -> step t w (goto t (Unlock false) w)
  | s_check_not : w_pc w t = Check -> w_done w = false -> step t w (goto t (Parse 0 []) w)
  | s_parse_ok i got f : w_pc w t = Parse i got -> i < 4 -> parse i = Some f ->
      step t w (mk_world (w_done w) (w_mutex w) (w_fnts w) (w_heap w) (w_parsed w ++ [i]) (w_results w)
                  (upd (w_pc w) t (Parse (S i) (got ++ [f]))))
  | s_parse_err i got : w_pc w t = Parse i got -> i < 4 -> parse i = None ->   (* log.Panicf *)
      step t w (mk_world (w_done w) (w_mutex w) (w_fnts w) (w_heap w) (w_parsed w ++ [i]) (w_results w)
                  (upd (w_pc w) t (Store true)))
  | s_parsed got : w_pc w t = Parse 4 got -> step t w (goto t (Assign got) w)
  | s_assign got : w_pc w t = Assign got ->
      step t w (mk_world (w_done w) (w_mutex w) (Some (List.length (w_heap w))) (w_heap w ++ [build got])
                  (w_parsed w) (w_results w) (upd (w_pc w) t (Store false)))
  | s_store p : w_pc w t = Store p ->
      step t w (mk_world true (w_mutex w) (w_fnts w) (w_heap w) (w_parsed w) (w_results w) (upd (w_pc w) t (Unlock p)))
  | s_unlock : w_pc w t = Unlock false ->
      step t w (mk_world (w_done w) None (w_fnts w) (w_heap w) (w_parsed w) (w_results w) (upd (w_pc w) t Read))
  | s_unlock_panic : w_pc w t = Unlock true ->
      step t w (mk_world (w_done w) None (w_fnts w) (w_heap w) (w_parsed w) (w_results w ++ [(t, Panicked)])
                  (upd (w_pc w) t Idle))
  | s_read : w_pc w t = Read ->
      step t w (mk_world (w_done w) (w_mutex w) (w_fnts w) (w_heap w) (w_parsed w)
                  (w_results w ++ [(t, Returned (w_fnts w))]) (upd (w_pc w) t Idle)).

(** All executions. *)
Inductive reachable : world -> Prop :=
  | r_start : reachable start
  | r_step w t w' : reachable w -> step t w w' -> reachable w'.
Inductive steps : world -> world -> Prop :=
  | st_refl w : steps w w
  | st_step w t w' w'' : step t w w' -> steps w' w'' -> steps w w''.

End Once.
