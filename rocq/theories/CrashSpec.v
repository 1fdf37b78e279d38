(** Crash points: what can be found on the disk when fit is killed, raises or ends.
    A crash is any beginning of the sequence of effects of the run.  Before the file is opened the disk holds what it held
    before; after it is closed, the text of all the lines; in between any beginning of the text written so far (the rest is in a
    buffer). *)
From Verif Require Export CrashModel ReportSpec.
Open Scope list_scope.
Open Scope string_scope.

Definition lines_of {L} (evs : list (event L)) : list L := flat_map (fun e => match e with ELine l => [l] | _ => [] end) evs.
Definition opened {L} (evs : list (event L)) : bool := existsb (fun e => match e with EOpen => true | _ => false end) evs.
Definition closed {L} (evs : list (event L)) : bool := existsb (fun e => match e with EClose => true | _ => false end) evs.
Definition selected_in {L} (evs : list (event L)) : nat := length (filter (fun e => match e with ESelected => true | _ => false end) evs).
Definition unselected_in {L} (evs : list (event L)) : nat := length (filter (fun e => match e with EUnselected => true | _ => false end) evs).
Definition begins {A} (l l' : list A) : Prop := exists rest, l' = (l ++ rest)%list.

(** The possible contents of the file after the effects [evs]; [None]: there is no file. *)
Definition on_disk {L} (text : L -> string) (old : option string) (evs : list (event L)) (d : option string) : Prop :=
  if opened evs then
    if closed evs then d = Some (file_text (map text (lines_of evs)))
    else exists p q, file_text (map text (lines_of evs)) = p ++ q /\ d = Some p
  else d = old.
(** Every run opens the file at most once, before any other effect, and closes it at most once, after all of them. *)
Definition well_ordered {L A} (m : run L A) : Prop :=
  fst m = [] \/
  exists body, opened body = false /\ closed body = false /\
    fst m = EOpen :: (body ++ match snd m with Ok _ => [EClose] | Err _ => [] end)%list.

(** The text up to the last line break. *)
Fixpoint has_break (s : string) : bool := match s with EmptyString => false | String c r => Ascii.eqb c nl || has_break r end.
Fixpoint whole_lines (s : string) : string :=
  match s with EmptyString => EmptyString | String c r => if has_break s then String c (whole_lines r) else EmptyString end.

(** The state after the effects. *)
Definition sd_effect {V} (st : sd_state V) (e : event (record V)) : sd_state V :=
  match e with
  | EOpen => SDS (st_selected st) (st_unselected st) (Some [])
  | ELine r => SDS (st_selected st) (st_unselected st) (match st_file st with Some l => Some (l ++ [r])%list | None => None end)
  | ESelected => SDS (S (st_selected st)) (st_unselected st) (st_file st)
  | EUnselected => SDS (st_selected st) (S (st_unselected st)) (st_file st)
  | EClose => st
  end.
Definition vl_effect {Seq V} (st : vl_state Seq V) (e : event (vl_record Seq V)) : vl_state Seq V :=
  match e with
  | EOpen => VS (vs_selected st) (vs_unselected st) (Some [])
  | ELine r => VS (vs_selected st) (vs_unselected st) (match vs_file st with Some l => Some (l ++ [r])%list | None => None end)
  | ESelected => VS (S (vs_selected st)) (vs_unselected st) (vs_file st)
  | EUnselected => VS (vs_selected st) (S (vs_unselected st)) (vs_file st)
  | EClose => st
  end.
