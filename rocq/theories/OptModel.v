(** Options on the command line. *)
From Verif Require Import Base.

(** Options, Model[0], AddressSize, Alignment (OPM.Mod 90-94). *)
Record settings := { Options : Z; Model : Z; AddressSize : Z; Alignment : Z }.
(** The option letters of OPM.Mod 184-209 and the option numbers of OPM.Mod 13-26. *)
Definition option_of (c : Z) : option Z :=
  if c =? 112 then Some 5 (* p: ptrinit *) else if c =? 97 then Some 7 (* a: assert *) else if c =? 114 then Some 2 (* r: ranchk *)
  else if c =? 116 then Some 3 (* t: typchk *) else if c =? 120 then Some 0 (* x: inxchk *) else if c =? 101 then Some 9 (* e: extsf *)
  else if c =? 115 then Some 4 (* s: newsf *) else if c =? 70 then Some 17 (* F: forcenewsym *) else if c =? 109 then Some 10 (* m: mainprog *)
  else if c =? 77 then Some 15 (* M: mainlinkstat *) else if c =? 83 then Some 13 (* S: dontasm *) else if c =? 99 then Some 14 (* c: dontlink *)
  else if c =? 102 then Some 16 (* f: notcoloroutput *) else if c =? 86 then Some 18 (* V: verbose *) else None.
(** OPM.Mod 179-231 [ScanOptions], from s[i] on; messages are left out.  s is the string without its 0X. *)
Fixpoint scan_options (s : list Z) (g : settings) : settings :=
  match s with
  | [] => g
  | c :: r =>
      match option_of c with
      | Some b => scan_options r {| Options := Z.lxor (Options g) (2 ^ b); Model := Model g; AddressSize := AddressSize g; Alignment := Alignment g |}
      | None =>
          if c =? 79 then (match r with [] => g | m :: r => scan_options r {| Options := Options g; Model := m; AddressSize := AddressSize g; Alignment := Alignment g |} end)
          else if c =? 65 then
            (match r with
             | a :: b :: r => scan_options r {| Options := Options g; Model := Model g; AddressSize := a - 48; Alignment := b - 48 |}
             | _ => scan_options r g
             end)
          else scan_options r g
      end
  end.
Definition ScanOptions (s : list Z) (g : settings) : settings := scan_options (tl s) g.
(** Modules.Mod 48-56 [GetArg] into an array of 256 characters. *)
Definition arg (s : list Z) : list Z := firstn 255 s.
Definition is_option (s : list Z) : bool := match s with c :: _ => c =? 45 | [] => false end.
(** OPM.Mod 296-301, 320-324: options are taken from the arguments as long as they start with the option character. *)
Fixpoint take_options (args : list (list Z)) (g : settings) : settings * list (list Z) :=
  match args with
  | a :: r => if is_option (arg a) then take_options r (ScanOptions (arg a) g) else (g, args)
  | [] => (g, [])
  end.
(** OPM.Mod 314-326 [InitOptions]; searchpath and resource directory are left out.  328-333: the sizes of the size model. *)
Definition InitOptions (global : settings) (args : list (list Z)) : settings * list (list Z) :=
  let '(g, args) := take_options args global in
  ({| Options := if Z.testbit (Options g) 15 then Z.lor (Options g) (2 ^ 10) else Options g; Model := Model g; AddressSize := AddressSize g; Alignment := Alignment g |}, args).
Definition sizes (model : Z) : Z * Z * Z * Z := if model =? 50 then (1, 2, 4, 4) else if model =? 67 then (2, 4, 8, 4) else if model =? 86 then (1, 4, 8, 8) else (1, 2, 4, 4).
(** Compiler.Mod 124-129: the files and the settings they are compiled with.  [found] tells whether a file can be read and is not empty (OPM.Mod 372-377); the first that
    is not ends the run. *)
Fixpoint files (fuel : nat) (found : list Z -> bool) (global : settings) (args : list (list Z)) : list (list Z * settings) :=
  match fuel with
  | O => []
  | S f =>
      match args with
      | [] => []
      | a :: r => if found (arg a) then let '(g, r) := InitOptions global r in (arg a, g) :: files f found global r else []
      end
  end.
(** OPM.Mod 291-308: the defaults {inxchk, typchk, ptrinit, assert}, the size model "2", and the address size and alignment of the machine (8 here). *)
Definition defaults : settings := {| Options := 2 ^ 0 + 2 ^ 3 + 2 ^ 5 + 2 ^ 7; Model := 50; AddressSize := 8; Alignment := 8 |}.
Definition run (found : list Z -> bool) (args : list (list Z)) : list (list Z * settings) := let '(global, args) := take_options args defaults in files (length args) found global args.
