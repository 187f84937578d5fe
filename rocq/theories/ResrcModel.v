(** Resources: src/library/ulm/ulmResources.Mod.
    Resources and keys are numbers; the discipline of a resource (lines 93-103) is created on first use (lines 109-121), here it is there from the start.
    Events and their handlers are left out.  A list of dependants is the list of its members; InternalNotify goes through the list it finds, no call in its loop changes this list. *)
From Verif Require Import Base.
(** ulmResources.Mod 55-61. *)
Definition terminated : Z := 0.
Definition unreferenced : Z := 1.
Definition communicationStopped : Z := 2.
Definition communicationResumed : Z := 3.
Definition alive : Z := 4.
Record disc := { state : Z; stopped : bool; refcnt : Z; dependants : list nat; dependsOn : option nat; key : option nat }.
(** A key is its field valid and its field resource. *)
Record world := { discs : nat -> disc; keys : list (bool * nat) }.
Definition start : world := {| discs := fun _ => {| state := alive; stopped := false; refcnt := 0; dependants := []; dependsOn := None; key := None |}; keys := [] |}.
Definition upd (w : world) (r : nat) (d : disc) : world := {| discs := fun q => if (q =? r)%nat then d else discs w q; keys := keys w |}.
Definition with_state (d : disc) (s : Z) := {| state := s; stopped := stopped d; refcnt := refcnt d; dependants := dependants d; dependsOn := dependsOn d; key := key d |}.
Definition with_stopped (d : disc) (b : bool) := {| state := state d; stopped := b; refcnt := refcnt d; dependants := dependants d; dependsOn := dependsOn d; key := key d |}.
Definition with_refcnt (d : disc) (n : Z) := {| state := state d; stopped := stopped d; refcnt := n; dependants := dependants d; dependsOn := dependsOn d; key := key d |}.
Definition with_dependants (d : disc) (l : list nat) := {| state := state d; stopped := stopped d; refcnt := refcnt d; dependants := l; dependsOn := dependsOn d; key := key d |}.
Definition with_link (d : disc) (o k : option nat) := {| state := state d; stopped := stopped d; refcnt := refcnt d; dependants := dependants d; dependsOn := o; key := k |}.
(** The search in lines 153-161: None if the member is not found (NIL is followed). *)
Fixpoint take_out (d : nat) (l : list nat) : option (list nat) :=
  match l with
  | [] => None
  | x :: l => if (x =? d)%nat then Some l else match take_out d l with Some l => Some (x :: l) | None => None end
  end.
(** ulmResources.Mod 141-167 [Unlink]. *)
Definition Unlink (detach : world -> nat -> option nat -> res world) (w : world) (dependant resource : nat) : res world :=
  if state (discs w resource) =? terminated then Ok w else
  match take_out dependant (dependants (discs w resource)) with
  | None => UB
  | Some l =>
    let w := upd w resource (with_dependants (discs w resource) l) in
    let* w := (match dependsOn (discs w dependant) with Some r => detach w r (key (discs w dependant)) | None => Ok w end) in
    Ok (upd w dependant (with_link (discs w dependant) None None))
  end.
(** ulmResources.Mod 229-251 [Detach]. *)
Fixpoint Detach (f : nat) (w : world) (resource : nat) (k : option nat) : res world :=
  match f with
  | O => Fuel
  | S f =>
    match k with
    | None => Ok w
    | Some k =>
      match nth_error (keys w) k with
      | None => UB
      | Some (valid, kr) =>
        if valid && (kr =? resource)%nat then
          if negb (state (discs w resource) =? terminated) then
            let w := {| discs := discs w; keys := set_nth k (false, kr) (keys w) |} in
            let w := upd w resource (with_refcnt (discs w resource) (refcnt (discs w resource) - 1)) in
            if refcnt (discs w resource) =? 0 then
              let w := upd w resource (with_state (discs w resource) unreferenced) in
              match dependsOn (discs w resource) with
              | Some r => Unlink (Detach f) w resource r
              | None => Ok w
              end
            else Ok w
          else Ok w
        else Ok w
      end
    end
  end.
(** ulmResources.Mod 169-195 [InternalNotify]; [g] bounds the depth of Detach. *)
Fixpoint each (body : world -> nat -> res world) (l : list nat) (w : world) : res world :=
  match l with [] => Ok w | d :: l => let* w := body w d in each body l w end.
Fixpoint InternalNotify (g f : nat) (w : world) (resource : nat) (change : Z) : res world :=
  match f with
  | O => Fuel
  | S f =>
    let d := discs w resource in
    let w := upd w resource (if change =? communicationResumed then with_stopped d false else if change =? communicationStopped then with_stopped d true
      else if change =? terminated then with_state (with_stopped d false) terminated else d) in
    let* w := each (fun w c => InternalNotify g f w c change) (dependants (discs w resource)) w in
    if change =? terminated then
      match dependsOn (discs w resource) with Some r => Unlink (Detach g) w resource r | None => Ok w end
    else Ok w
  end.
(** ulmResources.Mod 215-227 [Attach]. *)
Definition Attach (w : world) (resource : nat) : option nat * world :=
  let s := state (discs w resource) in
  if (s =? terminated) || (s =? unreferenced) then (None, w)
  else let w1 := upd w resource (with_refcnt (discs w resource) (refcnt (discs w resource) + 1)) in
    (Some (length (keys w)), {| discs := discs w1; keys := keys w ++ [(true, resource)] |}).
(** ulmResources.Mod 253-273 [Notify]. *)
Definition Notify (g f : nat) (w : world) (resource : nat) (change : Z) : res world :=
  if negb (change =? unreferenced) then
    let d := discs w resource in
    if negb (state d =? terminated) && negb (state d =? change) && (negb (change =? communicationResumed) || stopped d) then InternalNotify g f w resource change else Ok w
  else Ok w.
(** ulmResources.Mod 275-312 [DependsOn]. *)
Definition DependsOn (g f : nat) (w : world) (dependant resource : nat) : res world :=
  if state (discs w resource) <=? unreferenced then
    if state (discs w resource) =? terminated then Notify g f w dependant (state (discs w resource)) else Ok w
  else
    match dependsOn (discs w dependant) with
    | Some _ => Ok w
    | None =>
      let w := upd w dependant (with_link (discs w dependant) (Some resource) (key (discs w dependant))) in
      let w := upd w resource (with_dependants (discs w resource) (dependant :: dependants (discs w resource))) in
      let (k, w) := Attach w resource in
      Ok (upd w dependant (with_link (discs w dependant) (dependsOn (discs w dependant)) k))
    end.
(** ulmResources.Mod 314-343 [Alive], [Stopped], [Terminated]. *)
Definition Alive (w : world) (r : nat) : bool := negb (stopped (discs w r)) && ((state (discs w r) =? alive) || (state (discs w r) =? unreferenced)).
Definition Stopped (w : world) (r : nat) : bool := stopped (discs w r).
Definition Terminated (w : world) (r : nat) : bool := state (discs w r) =? terminated.
