(** The model of the data file of the mapping program vslam-sandbox/src/main.rs: what is loaded when the program starts,
    and what the file holds when the program is stopped at some point.  The encoding (bincode) is an oracle; bytes that
    were written are taken to stay written. *)
From stdpp Require Import gmap list.
From Verif Require Import Outcome Num Lin Core Geom Sfm SfmPose SfmGeom Bicubic SfmExport Sandbox.
Open Scope nat_scope.

Section data_file.
Context {N : Num} (T : trig N) {F : Type} (colour_of : F -> colour) {B : Type}.
Notation vdata := (vdata (iso N) F).
Context (encode : vdata -> list B) (decode : list B -> option vdata).

(** How a run of the program ends: at its end, somewhere before the file is created, or when so many bytes have been
    written (it is killed, or no more can be written: main.rs 171-173 only logs that). *)
Inductive ending := Completed | Interrupted_before | Interrupted_after (written : nat).
(** A run of the program: its settings and arguments, whether the system lets it open and create the file, and how it ends. *)
Record run := Run {
  r_settings : settings;
  r_options : options N;
  r_geometry : gsettings N;
  r_pictures : list (picture N F);
  r_opened : bool;
  r_created : bool;
  r_ending : ending
}.
(** The file: [None] if there is none. *)
Definition disk := option (list B).

(** main.rs 80-89: a file that cannot be opened is as good as none; one that cannot be read is a panic. *)
Definition load (f : disk) (opened : bool) : outcome (option vdata) :=
  match opened, f with
  | true, Some bytes => let! d := unwrap (decode bytes) in Ok (Some d)
  | _, _ => Ok None
  end.
(** main.rs 80-165: the run up to the point where the data are saved. *)
Definition work (f : disk) (r : run) : outcome (session N F) :=
  let! loaded := load f (r_opened r) in
  session_of T colour_of (r_settings r) (r_options r) (r_geometry r) loaded (r_pictures r).
(** main.rs 170-174: [File::create] empties the file, then the bytes are written. *)
Definition write (f : disk) (r : run) (d : vdata) : disk :=
  match r_ending r with
  | Interrupted_before => f
  | Interrupted_after n => if r_created r then Some (take n (encode d)) else f
  | Completed => if r_created r then Some (encode d) else f
  end.
(** main.rs 167-177: what the file holds when the run has ended. *)
Definition file_after (f : disk) (r : run) : disk :=
  match work f r with
  | Ok ss => match saved (r_pictures r) ss with None => f | Some d => write f r d end
  | _ => f
  end.
Definition file_after_runs (f : disk) (rs : list run) : disk := foldl file_after f rs.
End data_file.
Arguments run N F : clear implicits.
Arguments disk B : clear implicits.
