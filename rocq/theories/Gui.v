(** Model of the GUI mode of mtex-render: cmd/mtex-render/gio.go:43-257. *)
From Coq Require Import ZArith String List Bool.
From Verif Require Import Symbols Arith Box Ship Mtex Ttf Render Backends Cli.
Import ListNotations.
Local Open Scope string_scope.
Local Open Scope list_scope.

Section Gui.
Context {A : arith} {Fnt : Type}.
Notation F := (Arith.F A).
Variable uni_letter : Z -> bool.
Variable range : Symbols.gset -> list string.
Variable parse_float : string -> option F.
Variable sf : @sfnt A Fnt.
Variable default_fonts : @fonts Fnt.
Variable face_ok : option Fnt -> F -> F -> bool.
Variable png : list (@gg A Fnt) -> list string * option string.    (* png.Encode, as in Cli.v *)
Variable image : Type.
Variable decode : string -> option image.                          (* png.Decode; None is an error *)
Variable blank : image.                                            (* image.NewRGBA(image.Rect(0, 0, 1, 1)) *)
(** lm.Fonts() and liberation.Fonts(); None is a panic *)
Variables lm liberation : option (@fonts Fnt).
Variable text_size : F.                                            (* ui.Theme.TextSize.V *)
(** float32 as in Backends.v; the result of newGioRenderer (gio.go:269-295) is its
    field offset or a panic *)
Variable f32 : Type.
Variable to32 : F -> f32.
Variable add32 : f32 -> f32 -> f32.
Variable gio_new : lres (@point f32).
Variable sys_create : string -> option string.                     (* the error of os.Create *)

(** What happens in the window (gioui.org, which is not modelled).  A key event has a
    name, whether Ctrl is among its modifiers, and whether it is a press.  A frame event
    leads to the layout of those widgets of the list that are visible, in an order gio
    chooses: each comes with what gio tells it, that is the text in the editor after its
    layout, and the number of new clicks on the button.  [shot] is the result of
    screenshot up to os.Create: None is an error, otherwise the Writes that png.Encode
    makes (gio.go:131-157). *)
Inductive key_name : Type := Escape | Enter | Return | F11 | OtherKey.
Inductive widget : Type :=
  | Label                                   (* gio.go:161, 183, 202 *)
  | EditorBox (text : string)               (* gio.go:162-172 *)
  | RenderButton (clicks : nat)             (* gio.go:173-180 *)
  | ImgBox                                  (* gio.go:182-200 *)
  | GioBox.                                 (* gio.go:202-211 *)
Inductive event : Type :=
  | Destroy (err : option string)
  | Key (name : key_name) (ctrl press : bool)
  | Frame (widgets : list widget) (shot : option (list string))
  | OtherEvent.

(** gio.go:58-72 UI; [u_text] is the text of the Editor; an [u_image] of None is nil *)
Record ui : Type := mk_ui { u_text : string; u_expr : string; u_screen : bool; u_image : option image }.
(** gio.go:74-85 NewUI *)
Definition first_expr : string := "$f(x) = \frac{\sqrt{x +20}}{2\pi} +\hbar \sum y\partial y$".
Definition new_ui : ui := mk_ui first_expr first_expr false (Some blank).

(** How Run is getting on: it waits for the next event; it has returned an error or
    nil; it has panicked; it does not come back. *)
Inductive status : Type := Running (u : ui) | Returned (err : option string) | Crashed (e : string) | Stuck.
(** What is seen in a frame. *)
Inductive sight : Type := Picture (i : image) | Ops (l : list (@gop f32)).
(** What Run does. *)
Inductive effect : Type := Redraw | Show (l : list sight) | File (a : action).

(** The writer of gio.go:220 is a bytes.Buffer, whose Write has no errors. *)
Definition buffer_dst (c : @dst_call A Fnt) : string * dst_result :=
  match img_render face_ok c with
  | LPanic e => ("", DstPanic e)
  | LOk cmds => let '(ws, err) := png cmds in
      (String.concat "" ws, match err with None => DstNil | Some e => DstErr e end)
  end.

(** One widget: the new state and what it shows. *)
Inductive laid : Type := Laid (u : ui) (l : list sight) | LaidPanic (e : string) | LaidStuck.

(** gio.go:217-240 imgRender, then 186-197: paint.NewImageOp panics if the image is nil. *)
Definition show_image (u : ui) : laid :=
  match u_image u with Some i => Laid u [Picture i] | None => LaidPanic "nil image" end.
Definition img_box (u : ui) : laid :=
  match lm, liberation with
  | Some _, Some fnts =>
    match render uni_letter range parse_float sf default_fonts (fun c => snd (buffer_dst c)) (u_expr u) text_size (fofZ A 256) (Some fnts) with
    | None => LaidStuck
    | Some (_, Panics e) => LaidPanic e
    | Some (_, RetErr _) => show_image u
    | Some (calls, RetNil) =>
      show_image (mk_ui (u_text u) (u_expr u) (u_screen u)
        (decode (String.concat "" (map (fun c => fst (buffer_dst c)) calls))))
    end
  | _, _ => LaidPanic "could not parse fonts"
  end.
(** gio.go:213-215 render, 242-257 gioRender *)
Definition gio_box (u : ui) : laid :=
  match lm, liberation with
  | Some _, Some fnts =>
    match gio_new with
    | LPanic e => LaidPanic e
    | LOk offset =>
      match render uni_letter range parse_float sf default_fonts (fun _ => DstNil) (u_expr u) text_size (fofZ A 256) (Some fnts) with
      | None => LaidStuck
      | Some (_, Panics e) => LaidPanic e
      | Some (calls, _) =>
        Laid u [Ops (o_list (fold_left (fun o c => gio_render f32 to32 add32 offset c o) calls (mk_gops [] 0)))]
      end
    end
  | _, _ => LaidPanic "could not parse fonts"
  end.

Definition widget_layout (w : widget) (u : ui) : laid :=
  match w with
  | Label => Laid u []
  | EditorBox t => Laid (mk_ui t (u_expr u) (u_screen u) (u_image u)) []
  | RenderButton 0 => Laid u []
  | RenderButton (S _) => Laid (mk_ui (u_text u) (u_text u) (u_screen u) (u_image u)) []
  | ImgBox => img_box u
  | GioBox => gio_box u
  end.
(** gio.go:159-211 Layout *)
Fixpoint layout (ws : list widget) (u : ui) : laid :=
  match ws with
  | [] => Laid u []
  | w :: ws' =>
    match widget_layout w u with
    | Laid u l => match layout ws' u with Laid u' l' => Laid u' (l ++ l') | r => r end
    | r => r
    end
  end.

(** gio.go:131-157 screenshot *)
Definition screenshot (shot : option (list string)) : list effect :=
  match shot with
  | None => []
  | Some ws =>
    match sys_create "ooo.png" with
    | Some _ => []
    | None => map File (Create "ooo.png" :: map (Write "ooo.png") ws)
    end
  end.

(** gio.go:87-120: one event *)
Definition handle (u : ui) (e : event) : list effect * status :=
  match e with
  | Destroy err => ([], Returned err)
  | Key Escape _ _ => ([], Returned None)
  | Key (Enter | Return) ctrl press =>
    if ctrl && press then ([Redraw], Running (mk_ui (u_text u) (u_text u) (u_screen u) (u_image u)))
    else ([], Running u)
  | Key F11 _ press =>
    if press then ([Redraw], Running (mk_ui (u_text u) (u_expr u) true (u_image u)))
    else ([], Running u)
  | Key OtherKey _ _ => ([], Running u)
  | Frame ws shot =>
    match layout ws u with
    | LaidStuck => ([], Stuck)
    | LaidPanic e => ([], Crashed e)
    | Laid u l =>
      if u_screen u then (Show l :: screenshot shot, Running (mk_ui (u_text u) (u_expr u) false (u_image u)))
      else ([Show l], Running u)
    end
  | OtherEvent => ([], Running u)
  end.
(** gio.go:87-120 Run on the events so far; the channel win.Events() is never closed *)
Fixpoint run (u : ui) (es : list event) : list effect * status :=
  match es with
  | [] => ([], Running u)
  | e :: es' =>
    match handle u e with
    | (l, Running u) => let '(l', r) := run u es' in (l ++ l', r)
    | r => r
    end
  end.
(** gio.go:43-56 runGio: how the process ends *)
Definition gui_exit (s : status) : option stop :=
  match s with
  | Running _ => None
  | Returned None => Some (Exit 0)
  | Returned (Some _) => Some (Exit 1)
  | Crashed e => Some (Panic e)
  | Stuck => Some Hang
  end.

End Gui.
Arguments mk_ui {image}. Arguments u_text {image}. Arguments u_expr {image}. Arguments u_screen {image}. Arguments u_image {image}.
Arguments Running {image}. Arguments Returned {image}. Arguments Crashed {image}. Arguments Stuck {image}.
Arguments Picture {image f32}. Arguments Ops {image f32}.
Arguments Redraw {image f32}. Arguments Show {image f32}. Arguments File {image f32}.
Arguments Laid {image f32}. Arguments LaidPanic {image f32}. Arguments LaidStuck {image f32}.
