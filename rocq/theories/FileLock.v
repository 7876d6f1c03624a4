(** * Model of src/utilities/file_lock.py as a transition system

    Any number of processes (named by nat) call [with_file_lock] for the same
    file; each system call is one atomic step and the steps of different
    processes interleave arbitrarily.  The file system is the set of existing
    paths; the lock path is kept separately.  Handlers are arbitrary: in every
    step they may create and delete any files except the lock file.  A process
    may crash (be killed) at any point of the call. *)
From Coq Require Import List Bool Arith Lia.
Import ListNotations.

(** Where a process is in file_lock.py:9-35. *)
Inductive pc :=
| Start                        (* called; before line 20 *)
| Checking (todo : list nat)   (* line 23: lock absent; [todo]: paths [all] still has to look at *)
| Entering                     (* line 27-28: decided to run; lock file not yet created *)
| Handling                     (* line 30: lock created, handler running *)
| Leaving (raised : bool)      (* line 31-33: in finally, lock not yet removed *)
| Skipped                      (* returned at line 22 or 25 *)
| Returned                     (* returned normally after the handler *)
| Raised                       (* left with the exception of open or of the handler *)
| Crashed.
Record fs := mkFs { lock : bool; files : nat -> bool; pcs : nat -> pc }.
Definition set_pc (s : fs) (p : nat) (x : pc) : fs := mkFs (lock s) (files s) (fun q => if Nat.eqb q p then x else pcs s q).
Definition set_lock (s : fs) (b : bool) : fs := mkFs b (files s) (pcs s).
Definition set_files (s : fs) (f : nat -> bool) : fs := mkFs (lock s) f (pcs s).
Definition running (x : pc) : Prop := match x with Skipped | Returned | Raised | Crashed => False | _ => True end.

(** One step of process [p]; [expect] is [expect_exists] (file_lock.py:14-15). *)
Inductive step (expect : list nat) (p : nat) (s : fs) : fs -> Prop :=
(** line 20-22 *)
| st_locked : pcs s p = Start -> lock s = true -> step expect p s (set_pc s p Skipped)
| st_unlocked : pcs s p = Start -> lock s = false -> step expect p s (set_pc s p (Checking expect))
(** line 23-25: [all] stops at the first missing path *)
| st_found x r : pcs s p = Checking (x :: r) -> files s x = true -> step expect p s (set_pc s p (Checking r))
| st_missing x r : pcs s p = Checking (x :: r) -> files s x = false -> step expect p s (set_pc s p Entering)
| st_complete : pcs s p = Checking [] -> step expect p s (set_pc s p Skipped)
(** line 28: open(lock_path, "w") creates or truncates the file, or raises *)
| st_create : pcs s p = Entering -> step expect p s (set_pc (set_lock s true) p Handling)
| st_no_create : pcs s p = Entering -> step expect p s (set_pc s p (Leaving true))
(** line 30 *)
| st_handler f : pcs s p = Handling -> step expect p s (set_files s f)
| st_handled r : pcs s p = Handling -> step expect p s (set_pc s p (Leaving r))
(** line 31-35: os.remove deletes the lock file whoever created it; a missing
    file raises OSError, which is caught and printed *)
| st_remove r : pcs s p = Leaving r -> step expect p s (set_pc (set_lock s false) p (if r then Raised else Returned))
(** killed *)
| st_crash : running (pcs s p) -> step expect p s (set_pc s p Crashed).

(** Executions: every interleaving. *)
Inductive reach (expect : list nat) (s0 : fs) : fs -> Prop :=
| r_refl : reach expect s0 s0
| r_step s p s' : reach expect s0 s -> step expect p s s' -> reach expect s0 s'.
(** Fresh system: no lock; all processes are about to call. *)
Definition fresh (s : fs) : Prop := lock s = false /\ forall p, pcs s p = Start.

(** file_lock.py:38-49 [wait_for_locks]: [listing k] is the number of lock
    files seen by the k-th [os.listdir]; the result lists the sleeps. *)
Fixpoint wait_loop (fuel : nat) (listing : nat -> nat) (k : nat) (backoff : nat) : option (list nat) :=
  match fuel with
  | O => None
  | S fuel' =>
      if Nat.ltb 0 (listing k)
      then option_map (cons backoff) (wait_loop fuel' listing (S k) (Nat.min (backoff * 2) 30))
      else Some []
  end.
Definition wait_for_locks (fuel : nat) (listing : nat -> nat) : option (list nat) := wait_loop fuel listing 0 1.
