(** Several calls of fit on the same object, seen from the output file.
    sdmap.py:270-274, sdmapstar.py:379-383, vlsd.py:346 and 394-395, sdiga.py:560-564: [self._file = open(path, "w")], the lines, then
    [self._file.close()] and [self._file = None], without [try]/[finally].  When the search raises, the file object stays in
    [self._file] with the text that has not reached the disk yet.  The next [self._file = open(path, "w")] first empties the file and
    only then drops the old object, and CPython closes a file object that is dropped: its remaining text is written where the old
    object had stopped writing, into the file that the new object has just opened.
    Modelled: one path; the content of the file as a string of bytes (one character per byte, no newline translation); a file object is
    the place where it writes next and the text in its buffer; after each write any beginning of the buffer may reach the disk.
    Not modelled: other processes that change the file, failures of the disk. *)
From Verif Require Export CrashModel FileModel.
From Coq Require Import String.
Open Scope string_scope.
Open Scope list_scope.
Open Scope nat_scope.

Record fobj := FObj { f_place : nat; f_buffer : string }.
(** The content of the file ([None]: it does not exist) and [self._file] ([None]: Python's None). *)
Record world := World { w_disk : option string; w_file : option fobj }.

(** The system call write: [s] from the place [n] on, over the old content [d]; a gap is filled with zero bytes.  Writing nothing
    does not change the file. *)
Fixpoint over (s d : string) : string :=
  match s, d with
  | EmptyString, _ => d
  | String c s', EmptyString => String c (over s' EmptyString)
  | String c s', String _ d' => String c (over s' d')
  end.
Fixpoint put_at (n : nat) (s d : string) : string :=
  match n, d with
  | O, _ => over s d
  | S n', EmptyString => String "000"%char (put_at n' s EmptyString)
  | S n', String c d' => String c (put_at n' s d')
  end.
Definition put (n : nat) (s d : string) : string := match s with EmptyString => d | _ => put_at n s d end.
(** [close()], called explicitly or because the object is dropped: the buffer is written. *)
Definition flush_all (f : option fobj) (d : string) : string :=
  match f with None => d | Some f => put (f_place f) (f_buffer f) d end.

(** One effect of fit. *)
Inductive effect {L} (text : L -> string) : event L -> world -> world -> Prop :=
| eff_open : forall d f, effect text EOpen (World d f) (World (Some (flush_all f "")) (Some (FObj 0 "")))
| eff_line : forall l d n buf now later, (buf ++ text l = now ++ later)%string ->
    effect text (ELine l) (World (Some d) (Some (FObj n buf))) (World (Some (put n now d)) (Some (FObj (n + String.length now) later)))
| eff_selected : forall w, effect text ESelected w w
| eff_unselected : forall w, effect text EUnselected w w
| eff_close : forall d f, effect text EClose (World (Some d) (Some f)) (World (Some (flush_all (Some f) d)) None).
Inductive effects {L} (text : L -> string) : list (event L) -> world -> world -> Prop :=
| effs_nil : forall w, effects text [] w w
| effs_cons : forall e evs w w1 w2, effect text e w w1 -> effects text evs w1 w2 -> effects text (e :: evs) w w2.
(** The calls of fit one after the other; an exception of one of them is caught by the caller. *)
Definition calls {L A} (text : L -> string) (ms : list (CrashModel.run L A)) : world -> world -> Prop :=
  effects text (flat_map fst ms).
(** The object is deleted, or the interpreter exits. *)
Definition deleted (w : world) : world :=
  match w_disk w with None => World None None | Some d => World (Some (flush_all (w_file w) d)) None end.
