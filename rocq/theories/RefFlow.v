(** The decision-diagram checkers as clients of the package's reference counting. Definitions only.
    A circuit is the list of its operations, [true] for a SWAP. What the application schemes answer, when gates are found identical, which
    side the lookahead scheme picks and when the check is cancelled is left to the environment (RefPackage.v), so that a statement for all
    environments covers all schemes, circuits and cancellations. *)
From Coq Require Import NArith Bool List Arith.
From Verif Require Import RefPackage.
Import ListNotations.
Local Open Scope ref_scope.

Notation ops := (list bool).
Definition finished (r : ops) : bool := match r with [] => true | _ => false end.

Section Flow.
Variable o : oracle.

(** TaskManager::applyGate (TaskManager.hpp:68-87); [left]: the direction. Reading the operation at the end of the circuit is a fault *)
Definition applyGate (left : bool) (r : ops) (e : node) : M (ops * node) :=
  match r with
  | [] => fail PastEnd
  | _ :: r' =>
      g <- fresh o ;;
      e' <- (if left then multiply o g e else multiply o e g) ;;
      incRef e' ;;; decRef e ;;; garbageCollect o ;;; ret (r', e')
  end.
(** applySwapOperations (TaskManager.hpp:89-94) *)
Fixpoint applySwaps (left : bool) (r : ops) (e : node) : M (ops * node) :=
  match r with
  | true :: r' => p <- applyGate left r e ;; applySwaps left r' (snd p)
  | _ => ret (r, e)
  end.
(** advance (TaskManager.hpp:96-103) *)
Fixpoint advance (left : bool) (steps : nat) (r : ops) (e : node) : M (ops * node) :=
  match steps with
  | O => ret (r, e)
  | S k => if finished r then ret (r, e)
           else p <- applyGate left r e ;; q <- applySwaps left (fst p) (snd p) ;; advance left k (fst q) (snd q)
  end.
(** finish (TaskManager.hpp:105-110); [k]: bound on the rounds, the number of operations is enough *)
Fixpoint finish_n (left : bool) (k : nat) (r : ops) (e : node) : M node :=
  if finished r then ret e
  else match k with O => hang | S k' => q <- advance left 1 r e ;; finish_n left k' (fst q) (snd q) end.
Definition finish (left : bool) (r : ops) (e : node) : M node := finish_n left (length r) r e.

(** * The construction and the simulation checker: one diagram per circuit *)
Record two := Two { r1 : ops; e1 : node; r2 : ops; e2 : node }.
Definition both_unfinished (s : two) : bool := negb (finished (r1 s)) && negb (finished (r2 s)).
Definition on1 (f : ops -> node -> M (ops * node)) (s : two) : M two := p <- f (r1 s) (e1 s) ;; ret (Two (fst p) (snd p) (r2 s) (e2 s)).
Definition on2 (f : ops -> node -> M (ops * node)) (s : two) : M two := p <- f (r2 s) (e2 s) ;; ret (Two (r1 s) (e1 s) (fst p) (snd p)).
Definition unless_done {A} (f : A -> M A) (s : A) : M A := d <- isDone o ;; if (d : bool) then ret s else f s.
(** execute (DDEquivalenceChecker.cpp:155-175); [fuel]: rounds of the loop *)
Fixpoint execute (fuel : nat) (s : two) : M two :=
  match fuel with
  | O => hang
  | S k =>
      if negb (both_unfinished s) then ret s
      else d <- isDone o ;;
        if (d : bool) then ret s
        else
          s <- on1 (applySwaps true) s ;; s <- on2 (applySwaps true) s ;;
          if negb (both_unfinished s) then execute k s
          else d <- isDone o ;;
            if (d : bool) then execute k s
            else
              n1 <- num o ;; n2 <- num o ;;
              s <- unless_done (on1 (advance true n1)) s ;;
              s <- unless_done (on2 (advance true n2)) s ;;
              execute k s
  end.
Definition finish1 (s : two) : M two := e <- finish true (r1 s) (e1 s) ;; ret (Two [] e (r2 s) (e2 s)).
Definition finish2 (s : two) : M two := e <- finish true (r2 s) (e2 s) ;; ret (Two (r1 s) (e1 s) [] e).
(** finish (DDEquivalenceChecker.cpp:177-185) *)
Definition finish_both (s : two) : M two := s <- unless_done finish1 s ;; unless_done finish2 s.
(** postprocessTask (DDEquivalenceChecker.cpp:187-207); [partial]: partial equivalence is checked *)
Definition postprocessTask (partial : bool) (e : node) : M node :=
  e <- changePermutation o e ;; d <- isDone o ;;
  if (d : bool) then ret e
  else e <- reduce o e ;; d <- isDone o ;;
    if (d : bool) then ret e else if partial then reduce o e else ret e.
Definition post1 (partial : bool) (s : two) : M two := e <- postprocessTask partial (e1 s) ;; ret (Two (r1 s) e (r2 s) (e2 s)).
Definition post2 (partial : bool) (s : two) : M two := e <- postprocessTask partial (e2 s) ;; ret (Two (r1 s) (e1 s) (r2 s) e).
(** postprocess (DDEquivalenceChecker.cpp:209-217) *)
Definition postprocess (partial : bool) (s : two) : M two := s <- unless_done (post1 partial) s ;; unless_done (post2 partial) s.
(** equals (DDEquivalenceChecker.cpp:27-102): both diagrams are read; for matrices a product with the conjugate transpose may be computed *)
Definition equals (e f : node) : M unit :=
  use e ;;; use f ;;; b <- flag o ;;
  if (b : bool) then use f ;;; g <- fresh o ;; h <- multiply o e g ;; use h else ret tt.
(** how a run ended: with a comparison, or because the check was cancelled (DDEquivalenceChecker.cpp:120-122) *)
Inductive ending := Compared | Cancelled.
(** run after initialize (DDEquivalenceChecker.cpp:111-125) *)
Definition run_two (fuel : nat) (partial : bool) (s : two) : M (ending * two) :=
  s <- execute fuel s ;; s <- finish_both s ;; s <- postprocess partial s ;; d <- isDone o ;;
  if (d : bool) then ret (Cancelled, s) else equals (e1 s) (e2 s) ;;; ret (Compared, s).
(** DDConstructionChecker::initializeTask (DDConstructionChecker.hpp:40-47) *)
Definition con_task : M node := e <- fresh o ;; incRef e ;;; reduce o e.
(** the construction checker's run; returns the two diagrams it ends with *)
Definition con_run (fuel : nat) (partial : bool) (c1 c2 : ops) : M (list node) :=
  a <- con_task ;; b <- con_task ;; p <- run_two fuel partial (Two c1 a c2 b) ;; ret [e1 (snd p); e2 (snd p)].

(** * The simulation checker *)
(** its run from the initial state [i]: initializeTask (DDSimulationChecker.cpp:28-33) for both circuits, then run, and, when the states were compared, both
    references are released (checkEquivalence, DDSimulationChecker.cpp:35-43). Returns the two states it ends with *)
Definition sim_run (fuel : nat) (partial : bool) (c1 c2 : ops) (i : node) : M (ending * two) :=
  incRef i ;;; incRef i ;;; p <- run_two fuel partial (Two c1 i c2 i) ;;
  match fst p with
  | Cancelled => ret p
  | Compared => decRef (e1 (snd p)) ;;; decRef (e2 (snd p)) ;;; ret p
  end.
(** the references a run leaves behind *)
Definition left_by (p : ending * two) : list node :=
  match fst p with Cancelled => [e1 (snd p); e2 (snd p)] | Compared => [] end.
(** a stimulus: a product state (StateGenerator.cpp:90, 128), or the state a random Clifford circuit of [gates] operations prepares, extended by
    [anc] ancillaries (StateGenerator.cpp:131-158) *)
Inductive stimulus := Product | Stabilized (gates anc : nat).
Fixpoint extend (anc : nat) (e : node) : M node :=
  match anc with O => ret e | S k => use e ;;; e' <- fresh o ;; extend k e' end.
Definition setRandomInitialState (t : stimulus) : M node :=
  match t with
  | Product => fresh o
  | Stabilized gates anc => z <- fresh o ;; e <- simulate o gates z ;; decRef e ;;; extend anc e
  end.
(** the manager stores a counterexample (EquivalenceCheckingManager.cpp:467-476, 733-742): getInitialVector and getInternalVector1/2
    (DDSimulationChecker.hpp:31-39) read the initial state [i] and the two states the last run ended with *)
Definition store (cexIn cexOut : bool) (i : node) (s : two) : M unit :=
  (if cexIn then use i else ret tt) ;;; if cexOut then use (e1 s) ;;; use (e2 s) else ret tt.
(** the manager's use of one simulation checker (EquivalenceCheckingManager.cpp:432-476, EquivalenceCheckingManager.hpp:299-353): for every simulation a new stimulus and a run; when
    a run shows the circuits to differ (the environment's choice) a counterexample is stored; then, or when a run was cancelled, no
    further simulation is run. Returns the diagrams left referenced *)
Fixpoint simulations (fuel : nat) (partial cexIn cexOut : bool) (c1 c2 : ops) (ts : list stimulus) : M (list node) :=
  match ts with
  | [] => ret []
  | t :: ts' =>
      i <- setRandomInitialState t ;; p <- sim_run fuel partial c1 c2 i ;;
      match fst p with
      | Cancelled => ret (left_by p)
      | Compared => different <- flag o ;;
          if (different : bool) then store cexIn cexOut i (snd p) ;;; ret (left_by p)
          else simulations fuel partial cexIn cexOut c1 c2 ts'
      end
  end.
(** ... after the constructor made the zero state (DDSimulationChecker.cpp:24) *)
Definition sim_session (fuel : nat) (partial cexIn cexOut : bool) (c1 c2 : ops) (ts : list stimulus) : M (list node) :=
  _z <- fresh o ;; simulations fuel partial cexIn cexOut c1 c2 ts.
(** running the checker twice without a new stimulus: the initial state is a member that survives the run (DDSimulationChecker.hpp:46) *)
Definition run_again (fuel : nat) (partial : bool) (c1 c2 : ops) : M (list node) :=
  z <- fresh o ;; p <- sim_run fuel partial c1 c2 z ;; q <- sim_run fuel partial c1 c2 z ;; ret (left_by p ++ left_by q).

(** * The alternating checker: one diagram for both circuits *)
(** [f]: the functionality; [k1], [k2]: operations cached by the lookahead scheme *)
Record one := One { a1 : ops; a2 : ops; f : node; k1 : option node; k2 : option node }.
Definition both_left (s : one) : bool := negb (finished (a1 s)) && negb (finished (a2 s)).
Definition alt1 (g : ops -> node -> M (ops * node)) (s : one) : M one := p <- g (a1 s) (f s) ;; ret (One (fst p) (a2 s) (snd p) (k1 s) (k2 s)).
Definition alt2 (g : ops -> node -> M (ops * node)) (s : one) : M one := p <- g (a2 s) (f s) ;; ret (One (a1 s) (fst p) (snd p) (k1 s) (k2 s)).
Definition cache (k : option node) : M node := match k with Some g => ret g | None => g <- fresh o ;; incRef g ;;; ret g end.
(** LookaheadApplicationScheme::operator() (LookaheadApplicationScheme.hpp:38-83) *)
Definition lookahead (s : one) : M one :=
  g1 <- cache (k1 s) ;; g2 <- cache (k2 s) ;;
  d1 <- multiply o g1 (f s) ;; use d1 ;;; d2 <- multiply o (f s) g2 ;; use d2 ;;;
  smaller1 <- flag o ;;
  if (smaller1 : bool) then
    match a1 s with
    | [] => fail PastEnd
    | _ :: r => decRef g1 ;;; incRef d1 ;;; decRef (f s) ;;; garbageCollect o ;;; ret (One r (a2 s) d1 None (Some g2))
    end
  else
    match a2 s with
    | [] => fail PastEnd
    | _ :: r => decRef g2 ;;; incRef d2 ;;; decRef (f s) ;;; garbageCollect o ;;; ret (One (a1 s) r d2 (Some g1) None)
    end.
(** execute (DDAlternatingChecker.cpp:52-81); [look]: the lookahead scheme is configured *)
Fixpoint alt_execute (look : bool) (fuel : nat) (s : one) : M one :=
  match fuel with
  | O => hang
  | S k =>
      if negb (both_left s) then ret s
      else d <- isDone o ;;
        if (d : bool) then ret s
        else
          s <- alt1 (applySwaps true) s ;; s <- alt2 (applySwaps false) s ;;
          if negb (both_left s) then alt_execute look k s
          else d <- isDone o ;;
            if (d : bool) then alt_execute look k s
            else
              use (f s) ;;; cancel <- flag o ;;
              if negb look && cancel then alt_execute look k (One (tl (a1 s)) (tl (a2 s)) (f s) (k1 s) (k2 s))
              else if look then
                s <- lookahead s ;; alt_execute look k s
              else
                n1 <- num o ;; n2 <- num o ;;
                s <- unless_done (alt1 (advance true n1)) s ;;
                s <- unless_done (alt2 (advance false n2)) s ;;
                alt_execute look k s
  end.
Definition alt_finish2 (s : one) : M one := e <- finish false (a2 s) (f s) ;; ret (One (a1 s) [] e (k1 s) (k2 s)).
(** finish (DDAlternatingChecker.cpp:83-88) *)
Definition alt_finish (s : one) : M one :=
  e <- finish true (a1 s) (f s) ;; unless_done alt_finish2 (One [] (a2 s) e (k1 s) (k2 s)).
Definition alt_perm (s : one) : M one := e <- changePermutation o (f s) ;; ret (One (a1 s) (a2 s) e (k1 s) (k2 s)).
(** the diagrams the run holds *)
Definition opt (k : option node) : list node := match k with Some g => [g] | None => [] end.
Definition holds (s : one) : list node := f s :: opt (k1 s) ++ opt (k2 s).
(** the whole run (DDEquivalenceChecker.cpp:104-125 with DDAlternatingChecker.cpp:21-50, 83-122); [refused]: canHandle rejects the circuits and initialize
    throws (DDAlternatingChecker.cpp:27-35). Returns the diagrams held at the end *)
Definition alt_run (look refused : bool) (fuel : nat) (c1 c2 : ops) : M (list node) :=
  e <- fresh o ;; incRef e ;;;
  if refused then ret [e]
  else
    e <- reduce o e ;;
    s <- alt_execute look fuel (One c1 c2 e None None) ;;
    s <- alt_finish s ;;
    s <- alt_perm s ;; s <- unless_done alt_perm s ;;
    d <- isDone o ;;
    if (d : bool) then ret (holds s) else use (f s) ;;; ret (holds s).
End Flow.
