(** Model of the command mtex-render (cmd/mtex-render/main.go), without its GUI mode,
    together with the flag package of the standard library. *)
From Coq Require Import ZArith String Ascii List Bool.
From Verif Require Import Symbols Arith Box Ship Mtex Ttf Render.
Import ListNotations.
Local Open Scope string_scope.
Local Open Scope list_scope.
Local Open Scope Z_scope.

Section Cli.
Context {A : arith} {Fnt : Type}.
Notation F := (Arith.F A).
Variable uni_letter : Z -> bool.
Variable range : Symbols.gset -> list string.
Variable parse_float : string -> option F.      (* strconv.ParseFloat(s, 64); None is an error *)
Variable sf : @sfnt A Fnt.
Variable default_fonts : @fonts Fnt.

(** ** Flags *)
(** main.go:27-32: the flags and their values *)
Record config : Type := mk_config { g_dpi : F; g_size : F; g_out : string; g_gui : bool }.
Definition defaults : config := mk_config (fofZ A 72) (fofZ A 12) "out.png" false.

(** strconv.ParseBool *)
Definition parse_bool (s : string) : option bool :=
  if existsb (String.eqb s) ["1"; "t"; "T"; "TRUE"; "true"; "True"] then Some true
  else if existsb (String.eqb s) ["0"; "f"; "F"; "FALSE"; "false"; "False"] then Some false
  else None.

(** flag.Value.Set for the four flags; None is an error or an unknown flag *)
Definition set_flag (name v : string) (c : config) : option config :=
  if String.eqb name "dpi" then option_map (fun x => mk_config x (g_size c) (g_out c) (g_gui c)) (parse_float v)
  else if String.eqb name "font-size" then option_map (fun x => mk_config (g_dpi c) x (g_out c) (g_gui c)) (parse_float v)
  else if String.eqb name "o" then Some (mk_config (g_dpi c) (g_size c) v (g_gui c))
  else if String.eqb name "gui" then option_map (fun b => mk_config (g_dpi c) (g_size c) (g_out c) b) (parse_bool v)
  else None.
Definition defined (name : string) : bool := existsb (String.eqb name) ["dpi"; "font-size"; "o"; "gui"].

(** The part before and after the first '='. *)
Fixpoint cut_eq (s : string) : string * option string :=
  match s with
  | "" => ("", None)
  | String c s' => if Ascii.eqb c "=" then ("", Some s') else let '(a, b) := cut_eq s' in (String c a, b)
  end.

Inductive flags : Type :=
  | Parsed (c : config) (args : list string)      (* the arguments after the flags *)
  | Help                                          (* flag.ErrHelp *)
  | Bad.                                          (* another error *)

(** flag.FlagSet.Parse and parseOne of the standard library. *)
Fixpoint parse_flags (c : config) (args : list string) : flags :=
  match args with
  | [] => Parsed c []
  | s :: rest =>
    match s with
    | String "-" (String x s2) =>
      if Ascii.eqb x "-" && String.eqb s2 "" then Parsed c rest       (* "--" *)
      else
        let name := if Ascii.eqb x "-" then s2 else String x s2 in
        match name with
        | "" => Bad
        | String y _ =>
          if Ascii.eqb y "-" || Ascii.eqb y "=" then Bad
          else
            let '(name, value) := cut_eq name in
            if negb (defined name) then
              if String.eqb name "help" || String.eqb name "h" then Help else Bad
            else if String.eqb name "gui" then
              match set_flag name (match value with Some v => v | None => "true" end) c with
              | Some c' => parse_flags c' rest
              | None => Bad
              end
            else
              match value with
              | Some v => match set_flag name v c with Some c' => parse_flags c' rest | None => Bad end
              | None =>
                match rest with
                | [] => Bad
                | v :: rest' => match set_flag name v c with Some c' => parse_flags c' rest' | None => Bad end
                end
              end
        end
    | _ => Parsed c args
    end
  end.

(** ** The run *)
(** What the system answers: the error of os.Create; for the n-th Write the number of
    bytes written before an error; the error of Close. *)
Record system : Type := mk_system {
  sys_create : string -> option string;
  sys_write : nat -> string -> option (nat * string);
  sys_close : option string }.
(** The changes to files. *)
Inductive action : Type := Create (path : string) | Write (path : string) (data : string).
(** How the command ends; a panic exits with status 2. *)
Inductive stop : Type := Exit (status : Z) | Panic (e : string) | Gui | Hang.

Variable face_ok : option Fnt -> F -> F -> bool.
(** png.Encode of the picture drawn by these calls: the Writes it makes, and its own
    error *)
Variable png : list (@gg A Fnt) -> list string * option string.
(** lm.Fonts() and liberation.Fonts(); None is a panic *)
Variables lm liberation : option (@fonts Fnt).
Variable sys : system.

Fixpoint write_all (n : nat) (ws : list string) (err : option string) : list string * dst_result :=
  match ws with
  | [] => ([], match err with None => DstNil | Some e => DstErr e end)
  | w :: ws' =>
    match sys_write sys n w with
    | Some (k, e) => ([String.substring 0 k w], DstErr e)
    | None => let '(l, r) := write_all (Datatypes.S n) ws' err in (w :: l, r)
    end
  end.
(** drawimg.go:32-58 with an *os.File as writer: the bytes written, the result *)
Definition png_file (c : @dst_call A Fnt) : list string * dst_result :=
  match img_render face_ok c with
  | LPanic e => ([], DstPanic e)
  | LOk cmds => let '(ws, err) := png cmds in write_all 0 ws err
  end.

(** main.go:21-70 main.  [args] is os.Args[1:].  The log output is not modelled. *)
Definition main (args : list string) : list action * stop :=
  match parse_flags defaults args with
  | Help => ([], Exit 0)
  | Bad => ([], Exit 2)
  | Parsed c rest =>
    if g_gui c then ([], Gui)
    else match rest with
    | [expr] =>
      match sys_create sys (g_out c) with
      | Some _ => ([], Exit 1)
      | None =>
        match lm, liberation with            (* main.go:55-58; useLiberation is true *)
        | Some _, Some fnts =>
          match render uni_letter range parse_float sf default_fonts (fun d => snd (png_file d)) expr (g_size c) (g_dpi c) (Some fnts) with
          | None => ([Create (g_out c)], Hang)
          | Some (calls, out) =>
            (Create (g_out c) :: map (Write (g_out c)) (flat_map (fun d => fst (png_file d)) calls),
             match out with
             | RetErr _ => Exit 1
             | Panics e => Panic e
             | RetNil => match sys_close sys with Some _ => Exit 1 | None => Exit 0 end
             end)
          end
        | _, _ => ([Create (g_out c)], Panic "could not parse fonts")
        end
      end
    | _ => ([], Exit 1)
    end
  end.

(** ** Files *)
Definition files : Type := string -> option string.
Definition do_action (a : action) (fs : files) : files :=
  match a with
  | Create p => fun q => if String.eqb q p then Some "" else fs q
  | Write p d => fun q => if String.eqb q p then match fs q with Some x => Some (x ++ d)%string | None => None end else fs q
  end.
Definition do_actions (l : list action) (fs : files) : files := fold_left (fun fs a => do_action a fs) l fs.

End Cli.
