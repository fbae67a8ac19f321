(** Model of the test runner ci/run-tests.go. *)
From Coq Require Import ZArith String Ascii List Bool.
From Verif Require Import Utf8.
Import ListNotations.
Local Open Scope string_scope.
Local Open Scope list_scope.
Local Open Scope Z_scope.

(** ci/run-tests.go:31-36: the flags, after flag.Parse (which is not modelled here;
    Cli.v models it for mtex-render) *)
Record options : Type := mk_options { o_race : bool; o_cover : string; o_tags : string; o_verbose : bool }.

(** ci/run-tests.go:51-67: the arguments of the go command.  The last element, "",
    is replaced by the package (line 70). *)
Definition go_test (o : options) (pkg : string) : list string :=
  ["test"]
  ++ (if o_verbose o || negb (String.eqb (o_cover o) "") || o_race o then ["-v"] else [])
  ++ (if negb (String.eqb (o_cover o) "")
      then ["-coverprofile=profile.out"; "-covermode=atomic"; "-coverpkg=" ++ o_cover o]%string else [])
  ++ (if negb (String.eqb (o_tags o) "") then ["-tags=" ++ o_tags o]%string else [])
  ++ (if o_race o then ["-race"; "-timeout=20m"] else ["-timeout=10m"])
  ++ [pkg].

(** bufio.ScanLines: a line without its newline and without one carriage return
    before it (standard library) *)
Definition newline : ascii := ascii_of_nat 10.
Fixpoint drop_cr (s : string) : string :=
  match s with
  | "" => ""
  | String c "" => if Ascii.eqb c (ascii_of_nat 13) then "" else s
  | String c s' => String c (drop_cr s')
  end.
(** bufio.Scanner over a bytes.Buffer: the successive values of Text.  A line of
    bufio.MaxScanTokenSize (64 KiB) bytes or more ends the scan with an error, which
    pkgList does not look at (ci/run-tests.go:111-117).  [cur] is the line read so far. *)
Definition max_token : Z := 65536.
Fixpoint scan_lines (s cur : string) : list string :=
  match s with
  | "" => if String.eqb cur "" then [] else if zlen cur <? max_token then [drop_cr cur] else []
  | String c s' =>
    if Ascii.eqb c newline then
      if zlen cur <? max_token then drop_cr cur :: scan_lines s' "" else []
    else scan_lines s' (cur ++ String c "")%string
  end.

(** strings.Contains (standard library) *)
Fixpoint contains (s sub : string) : bool :=
  String.prefix sub s || match s with "" => false | String _ s' => contains s' sub end.

(** ci/run-tests.go:109-119: the end of pkgList, on the output of go list *)
Definition packages (out : string) : list string :=
  filter (fun pkg => negb (contains pkg "vendor")) (scan_lines out "").

(** What the runner does: it runs a go command (and learns whether it failed),
    creates coverage.txt, appends to it, and removes profile.out. *)
Inductive event : Type :=
  | Ran (args : list string) (ok : bool)
  | Created
  | Appended (d : string)
  | Removed.

(** The rest of the machine.  [test n args p]: the n-th go test command, started
    when profile.out holds p (None: no such file); whether it succeeds, and what
    profile.out holds then.  Only this file and coverage.txt are modelled, and no
    command touches the latter. *)
Record machine : Type := mk_machine {
  list_cmd : bool * string;                                   (* go list ./...: success, standard output *)
  test : nat -> list string -> option string -> bool * option string;
  create_ok : bool;                                           (* os.Create("coverage.txt") *)
  read_ok : nat -> bool;                                      (* os.ReadFile of an existing profile.out *)
  short_write : nat -> string -> option nat;                  (* f.Write: None, or an error after some bytes *)
  remove_ok : nat -> bool;                                    (* os.Remove, whose error is ignored *)
  close_ok : bool }.                                          (* f.Close *)

Section Ci.
Variable o : options.
Variable m : machine.

(** ci/run-tests.go:69-92: the loop over the packages, [n] of which were tested
    before; whether it reached its end *)
Fixpoint test_all (n : nat) (pkgs : list string) (prof : option string) : list event * bool :=
  match pkgs with
  | [] => ([], true)
  | pkg :: pkgs' =>
    let args := go_test o pkg in
    let '(ok, prof) := test m n args prof in
    if negb ok then ([Ran args false], false)
    else if negb (String.eqb (o_cover o) "") then
      match prof with
      | Some d =>
        if negb (read_ok m n) then ([Ran args true], false)
        else match short_write m n d with
        | Some k => ([Ran args true; Appended (String.substring 0 k d)], false)
        | None =>
          let '(evs, r) := test_all (S n) pkgs' (if remove_ok m n then None else Some d) in
          (Ran args true :: Appended d :: Removed :: evs, r)
        end
      | None => ([Ran args true], false)
      end
    else let '(evs, r) := test_all (S n) pkgs' prof in (Ran args true :: evs, r)
  end.

(** ci/run-tests.go:22-98 main and 100-119 pkgList: what it does, and its exit
    status; log.Fatal exits with 1.  [prof] is profile.out at the start. *)
Definition ci (prof : option string) : list event * Z :=
  let '(ok, out) := list_cmd m in
  let listed := Ran ["list"; "./..."] ok in
  if negb ok then ([listed], 1)
  else if negb (create_ok m) then ([listed], 1)
  else
    let '(evs, r) := test_all 0 (packages out) prof in
    (listed :: Created :: evs, if r && close_ok m then 0 else 1).

End Ci.
