(** The carrier of a transition of the Innsbruck machine.
    Source: src/mqt/qudits/simulation/backends/innsbruck_01.py:40-76. *)
From Verif.Base Require Import Py.
From Verif.Levels Require Import LevelsModel.
Local Open Scope string_scope.
Local Open Scope list_scope.

(** innsbruck_01.py:40-71 (energy_level_graphs): the graphs are made at the first access and kept, so a later swap of levels
    stays visible *)
Definition innsbruck_graphs : list lgraph := [innsbruck; innsbruck].
(** innsbruck_01.py:73-76 for a graph index that is not negative; networkx get_edge_data gives None for levels that are not
    joined, and None["carrier"] raises TypeError *)
Definition edge_to_carrier (graphs : list lgraph) (leva levb : Z) (graph_index : nat) : res aval :=
  match nth_error graphs graph_index with
  | None => Err IndexError
  | Some g => match edge_data g leva levb with
              | None => Err TypeError
              | Some d => getk (aget d "carrier")
              end
  end.
