(** Model of the hierarchical clustering of bodies. *)
From Coq Require Import Reals String Ascii List Bool Arith.
From Verif Require Import Model_Base Model_Geometry Model_Mesh Model_Tree Model_Integrals Model_Body.
Import ListNotations.
Open Scope nat_scope.

Section Cluster.
  (** [ndarray.argsort] and [heal_normals], as in Model_Body. *)
  Variable argsort : list R -> list nat.
  Variable heal_normals : mesh -> result mesh.
  (** The two first columns of [scipy.cluster.hierarchy.linkage(positions, method='centroid', metric='euclidean')]. *)
  Variable linkage : list (R * R) -> result (list (nat * nat)).

  (** The positions of the bodies, bodies.py:1183-1185. In Python the center of buoyancy is never [None], and the test of
      line 1183 never raises; a body without volume has a center with nan or infinite coordinates, and then it is [linkage]
      that raises [ValueError] on distances that are not finite. Both are the same exception here. *)
  Definition buoy_position (b : fbody) : result (R * R) :=
    bind (center_of_buoyancy (fb_mesh b)) (fun c =>
    match c with Some c => Ok (vx c, vy c) | None => Err ValueError end).
  (** The loop on the rows of the linkage matrix, bodies.py:1194-1201. [ii]: the number of rows already read. *)
  Fixpoint merge_nodes (nb_buoys ii : nat) (node_list : list fbody) (rows : list (nat * nat)) : result (list fbody) :=
    match rows with
    | [] => Ok node_list
    | (merge_left, merge_right) :: rows' =>
      bind (get node_list merge_left) (fun left =>
      bind (get node_list merge_right) (fun right =>
      bind (join_bodies argsort heal_normals [left; right] (Some ("node_" ++ str_nat (ii + nb_buoys))%string)) (fun new_node =>
      merge_nodes nb_buoys (S ii) (node_list ++ [new_node]) rows')))
    end.
  (** [cluster_bodies], bodies.py:1164-1209. [np.stack] of an empty list raises [ValueError]. *)
  Definition cluster_bodies (bodies : list fbody) (name : option string) : result fbody :=
    match bodies with
    | [] => Err ValueError
    | _ =>
      bind (mapM buoy_position bodies) (fun positions =>
      bind (linkage positions) (fun rows =>
      bind (merge_nodes (List.length bodies) 0 bodies rows) (fun node_list =>
      (* [new_node] is not defined when there is no row: [UnboundLocalError]. *)
      match rows with
      | [] => Err OtherException
      | _ => bind (get node_list (List.length node_list - 1)) (fun all_buoys =>
             Ok (match name with Some n => set_name all_buoys n | None => all_buoys end))
      end)))
    end.
End Cluster.
