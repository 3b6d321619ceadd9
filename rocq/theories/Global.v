(** The global pool: a pool behind a mutex, used by any number of threads. *)
From Verif Require Import Base Value Descr Proto Build.

(** What threads ask for (descriptor/global.rs:14-52): a copy of the pool
    ([DescriptorPool::global]), or adding files
    ([add_global_file_descriptor_proto], [decode_global_file_descriptor_set]). *)
Inductive req := Snapshot | Add (fuel : nat) (fs : list file).
(** How an answered request ended *)
Inductive entry := Snapped (p : pool) | Added (fs : list file) | Refused (fs : list file).

(** Where a thread is in its first request: not in it yet; holding the lock;
    changing the pool (which was [p0] when it got the lock); unwound by a panic *)
Inductive phase := Idle | Holding | Working (p0 : pool) | Dead.
Record thread := Th { t_todo : list req; t_at : phase }.

(** The pool, who holds the lock, whether the mutex is poisoned, the threads,
    and the answered requests (newest last, with the thread).
    The OnceLock that creates the mutex runs its initialiser once, before any
    use (std's contract), so the initial state already has the pool of the
    well-known types. *)
Record gstate := G {
  g_pool : pool; g_lock : option nat; g_poisoned : bool;
  g_threads : list thread; g_log : list (nat * entry) }.
Definition set_thread (i : nat) (t : thread) (l : list thread) : list thread := upd i (fun _ => t) l.

Section Global.
Variable X : externs.

(** One step of thread [i].  Changing the pool is not atomic: between taking the
    lock and the end of the add the pool passes through any number of arbitrary
    states [q] (g_dirty), which is more than the code can produce.
    Panics while the lock is held poison the mutex, after which
    [instance()] panics (lock().unwrap(), global.rs:10-14).
    A stack overflow aborts the process: no step. *)
Inductive gstep : gstate -> nat -> gstate -> Prop :=
| g_acquire pool ts log i r todo :
    nth_error ts i = Some (Th (r :: todo) Idle) ->
    gstep (G pool None false ts log) i (G pool (Some i) false (set_thread i (Th (r :: todo) Holding) ts) log)
| g_acquire_poisoned pool ts log i r todo :
    nth_error ts i = Some (Th (r :: todo) Idle) ->
    gstep (G pool None true ts log) i (G pool None true (set_thread i (Th (r :: todo) Dead) ts) log)
| g_snap pool ts log i todo ps :
    nth_error ts i = Some (Th (Snapshot :: todo) Holding) ->
    gstep (G pool (Some i) ps ts log) i (G pool None ps (set_thread i (Th todo Idle) ts) (log ++ [(i, Snapped pool)]))
| g_begin pool ts log i fuel fs todo ps :
    nth_error ts i = Some (Th (Add fuel fs :: todo) Holding) ->
    gstep (G pool (Some i) ps ts log) i (G pool (Some i) ps (set_thread i (Th (Add fuel fs :: todo) (Working pool)) ts) log)
| g_dirty pool ts log i fuel fs todo ps p0 q :
    nth_error ts i = Some (Th (Add fuel fs :: todo) (Working p0)) ->
    gstep (G pool (Some i) ps ts log) i (G q (Some i) ps ts log)
| g_built pool ts log i fuel fs todo ps p0 p' :
    nth_error ts i = Some (Th (Add fuel fs :: todo) (Working p0)) ->
    build_files X fuel p0 fs = Built p' ->
    gstep (G pool (Some i) ps ts log) i (G p' None ps (set_thread i (Th todo Idle) ts) (log ++ [(i, Added fs)]))
| g_rejected pool ts log i fuel fs todo ps p0 p' es :
    nth_error ts i = Some (Th (Add fuel fs :: todo) (Working p0)) ->
    build_files X fuel p0 fs = Rejected p' es ->
    gstep (G pool (Some i) ps ts log) i (G p' None ps (set_thread i (Th todo Idle) ts) (log ++ [(i, Refused fs)]))
| g_crashed pool ts log i fuel fs todo ps p0 q :
    nth_error ts i = Some (Th (Add fuel fs :: todo) (Working p0)) ->
    build_files X fuel p0 fs = Crashed ->
    gstep (G pool (Some i) ps ts log) i (G q None true (set_thread i (Th (Add fuel fs :: todo) Dead) ts) log).

Inductive gsteps (s : gstate) : gstate -> Prop :=
| gs_refl : gsteps s s
| gs_step i s' s'' : gsteps s s' -> gstep s' i s'' -> gsteps s s''.

(** threads that have not started *)
Definition start (p : pool) (progs : list (list req)) : gstate :=
  G p None false (map (fun r => Th r Idle) progs) [].
End Global.

(** ** Specification: requests answered one at a time on a single pool *)
Section Spec.
Variable X : externs.
Inductive serial (p : pool) : list (nat * entry) -> pool -> Prop :=
| se_nil : serial p [] p
| se_snap log q i : serial p log q -> serial p (log ++ [(i, Snapped q)]) q
| se_added log q q' i fuel fs : serial p log q -> build_files X fuel q fs = Built q' -> serial p (log ++ [(i, Added fs)]) q'
| se_refused log q q' i fuel fs es : serial p log q -> build_files X fuel q fs = Rejected q' es -> serial p (log ++ [(i, Refused fs)]) q'.
End Spec.
