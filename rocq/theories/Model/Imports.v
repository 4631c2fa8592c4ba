(** What the import statements of the package do.
    Modelled: the module-level import statements of
      DeterministicParticleFlowControl/__init__.py (15-16), version.py, DeterministicParticleFlowControl.py (12-52),
      score_estimators/__init__.py (5-6), score_estimators/score_function_estimators.py (11-16), score_estimators/score.py (9-16),
      score_estimators/score_function_estimators_pytorch.py (8-11), reweighting/__init__.py (6),
      reweighting/optimal_transport_reweighting.py (10-13), kernels/__init__.py (9), kernels/RBF_pytorch.py (9-11),
      utils/__init__.py (9), utils/utils_pytorch.py (9), due.py (46-55).
    Simplifications: modules of the standard library are always importable; importing a third-party module either succeeds or
    raises ImportError; statements other than imports do not raise; the imported names exist in the modules that define them. *)
From Coq Require Import String List Bool.
Import ListNotations.
Open Scope string_scope.

Definition path := list string.
Fixpoint peqb (a b : path) : bool :=
  match a, b with
  | [], [] => true
  | x :: a', y :: b' => String.eqb x y && peqb a' b'
  | _, _ => false
  end.
Fixpoint dotted (p : path) : string :=
  match p with [] => "" | [x] => x | x :: q => x ++ "." ++ dotted q end.

Inductive stmt :=
| Third (m : string)                     (* import m / from m import ... , m a third-party package *)
| From1 (p : path)                       (* from .p import ... *)
| FromAbs (p : path)                     (* from p import ... *)
| TryThird (m flag : string)             (* try: import m; flag = True / except ImportError: flag = False *)
| IfFlag (flag : string) (body : list stmt)
| IfName (name : string) (a b : list stmt).   (* if __name__ == name: a else: b *)

(** the files below the directory DeterministicParticleFlowControl: is it a package, and its import statements *)
Definition torch_line11 := From1 ["kernels"; "RBF_pytorch"].        (* score_function_estimators_pytorch.py:11 *)
Section Files.
  Context (line11 : stmt).
  Definition table : list (path * (bool * list stmt)) :=
    [ ([], (true, [From1 ["version"]; From1 ["DeterministicParticleFlowControl"]]));
      (["version"], (false, []));
      (["due"], (false, [TryThird "duecredit" "DUE"]));
      (["DeterministicParticleFlowControl"], (false,
        [Third "numpy"; TryThird "ot" "POTTED"; TryThird "numba" "NUMBED"; Third "matplotlib"; TryThird "torch" "TORCHED";
         IfName "DeterministicParticleFlowControl.DeterministicParticleFlowControl"
           [From1 ["score_estimators"; "score_function_estimators"]; From1 ["reweighting"; "optimal_transport_reweighting"];
            IfFlag "TORCHED" [From1 ["score_estimators"; "score_function_estimators_pytorch"]]]
           [FromAbs ["score_estimators"; "score_function_estimators"]; FromAbs ["reweighting"; "optimal_transport_reweighting"];
            IfFlag "TORCHED" [FromAbs ["score_estimators"; "score_function_estimators_pytorch"]]];
         Third "duecredit"]));
      (["score_estimators"], (true, [From1 ["score_function_estimators"]; From1 ["score_function_estimators_pytorch"]]));
      (["score_estimators"; "score_function_estimators"], (false, [Third "numpy"; Third "scipy"; Third "numba"]));
      (["score_estimators"; "score"], (false, [Third "numpy"; Third "scipy"]));
      (["score_estimators"; "score_function_estimators_pytorch"], (false, [Third "torch"; Third "numpy"; line11]));
      (["reweighting"], (true, [From1 ["optimal_transport_reweighting"]]));
      (["reweighting"; "optimal_transport_reweighting"], (false, [Third "pyemd"; Third "numpy"; Third "scipy"]));
      (["kernels"], (true, [From1 ["RBF_pytorch"]]));
      (["kernels"; "RBF_pytorch"], (false, [Third "numpy"; Third "torch"]));
      (["utils"], (true, [From1 ["utils_pytorch"]]));
      (["utils"; "utils_pytorch"], (false, [Third "torch"])) ].
  Definition file (p : path) : option (bool * list stmt) := option_map snd (List.find (fun e => peqb p (fst e)) table).

  (** the directory on sys.path: the repository (the installed package), or the package directory itself (script_1.py, docs) *)
  Inductive root := Repo | Inside.
  Definition find (r : root) (m : path) : option (bool * list stmt) :=
    match r, m with
    | Repo, x :: p => if String.eqb x "DeterministicParticleFlowControl" then file p else None
    | Inside, _ :: _ => file m
    | _, [] => None
    end.

  Inductive outcome := Fine | ImportError | Deep.      (* Deep: the interpreter ran out of fuel *)

  (** [loaded] is sys.modules; a module that raises while it is executed is removed from it again *)
  Section Run.
    Context (r : root) (inst : string -> bool).
    Definition mem (m : path) (l : list path) : bool := existsb (peqb m) l.
    Definition remove (m : path) (l : list path) : list path := filter (fun x => negb (peqb m x)) l.
    (** import a.b.c imports a, then a.b, then a.b.c *)
    Fixpoint import_from (run : path -> bool -> list stmt -> list path -> outcome * list path)
        (pre rest : path) (loaded : list path) : outcome * list path :=
      match rest with
      | [] => (Fine, loaded)
      | x :: rest' =>
          let m := pre ++ [x] in
          if mem m loaded then import_from run m rest' loaded
          else match find r m with
               | None => (ImportError, loaded)
               | Some (pkg, body) =>
                   match run m pkg body (m :: loaded) with
                   | (Fine, loaded') => import_from run m rest' loaded'
                   | (e, loaded') => (e, remove m loaded')
                   end
               end
      end%list.
    Definition parent (m : path) (pkg : bool) : path := if pkg then m else removelast m.
    Fixpoint exec (fuel : nat) (m : path) (pkg : bool) (flags : list string) (body : list stmt) (loaded : list path)
      : outcome * list string * list path :=
      match fuel with
      | O => (Deep, flags, loaded)
      | S n =>
          match body with
          | [] => (Fine, flags, loaded)
          | st :: body' =>
              let run := fun m pkg b l => let '(o, _, l') := exec n m pkg [] b l in (o, l') in
              let '(o, flags1, loaded1) :=
                match st with
                | Third x => ((if inst x then Fine else ImportError), flags, loaded)
                | TryThird x f => (Fine, (if inst x then f :: flags else flags), loaded)
                | From1 p => let '(o, l) := import_from run (parent m pkg) p loaded in (o, flags, l)
                | FromAbs p => let '(o, l) :=
                      match p with
                      | x :: _ => match find r [x] with
                                  | Some _ => import_from run [] p loaded
                                  | None => ((if inst x then Fine else ImportError), loaded)
                                  end
                      | [] => (Fine, loaded)
                      end in (o, flags, l)
                | IfFlag f b => if existsb (String.eqb f) flags then exec n m pkg flags b loaded else (Fine, flags, loaded)
                | IfName x a b => exec n m pkg flags (if String.eqb x (dotted m) then a else b) loaded
                end in
              match o with
              | Fine => exec n m pkg flags1 body' loaded1
              | e => (e, flags1, loaded1)
              end
          end
      end.
    Definition fuel := 40.
    (** import m *)
    Definition import_module (m : path) (loaded : list path) : outcome * list path :=
      import_from (fun m pkg b l => let '(o, _, l') := exec fuel m pkg [] b l in (o, l')) [] m loaded.
  End Run.

  (** one interpreter session: a sequence of imports, each of which may find different packages installed; failures are caught *)
  Fixpoint session (r : root) (steps : list ((string -> bool) * path)) (loaded : list path) : list outcome :=
    match steps with
    | [] => []
    | (inst, m) :: steps' => let '(o, l) := import_module r inst m loaded in o :: session r steps' l
    end.
End Files.
