(** The listings of a triangulation: include/Foliated_triangulation.hpp:935-1014,
    1931-2021. *)
From Verif Require Import Base Config Text Transcript Repair.
Local Open Scope Z_scope.
Local Open Scope list_scope.

Section Listing.
  (** include/Utilities.hpp:2375-2381 [point_to_str] of a vertex's point. *)
  Variable point_to_str : positive -> text.

  (** Foliated_triangulation.hpp:944-948: one vertex of a cell. *)
  Definition print_cell_vertex (vi : positive -> Z) (j : nat) (v : positive) : text :=
    line [B "Vertex("; print_int (Z.of_nat j); B ") Point: ("; point_to_str v; B ") Timevalue: "; print_int (vi v)].
  (** Foliated_triangulation.hpp:935-950 [print_cell]; the loop runs over the indices
      0 to 3. *)
  Definition print_cell (vi : positive -> Z) (ci : list positive -> Z) (c : list positive) : text :=
    line [B "Cell info => "; print_int (ci c)] ++
    concat (map (fun j => print_cell_vertex vi j (nth j c 1%positive)) (seq 0 4)) ++
    line [B "---"].
  (** 956-960 [print_cells]; 1988-1989 the member, on the cached cells. *)
  Definition print_cells (f : foliated) : text :=
    concat (map (print_cell (d_vinfo (f_delaunay f)) (d_cinfo (f_delaunay f))) (f_cells f)).
  (** 986-993 [print_neighboring_cells]; [neighbor j] is the cell opposite vertex j.
      The prefix has no line break. *)
  Definition print_neighboring_cells (vi : positive -> Z) (ci : list positive -> Z) (neighbor : nat -> list positive) : text :=
    concat (map (fun j => B "Neighboring cell " ++ print_int (Z.of_nat j) ++ B ":" ++ print_cell vi ci (neighbor j)) (seq 0 4)).
  (** 1002-1014 [print_edge]. *)
  Definition print_edge (vi : positive -> Z) (e : list positive * nat * nat) : text :=
    let '(c, i, j) := e in
    line [B "Edge: Vertex("; print_int (Z.of_nat i); B ") Point("; point_to_str (nth i c 1%positive); B ") Timevalue: ";
          print_int (vi (nth i c 1%positive)); B " -> Vertex("; print_int (Z.of_nat j); B ") Point(";
          point_to_str (nth j c 1%positive); B ") Timevalue: "; print_int (vi (nth j c 1%positive))].
  (** 1931-1940 [print_vertices]; [expected] as in Repair.v. *)
  Definition print_vertices (expected : positive -> Z) (f : foliated) : text :=
    concat (map (fun v => line [B "Vertex Point: ("; point_to_str v; B ") Timevalue: "; print_int (d_vinfo (f_delaunay f) v);
                                B " Expected Timevalue: "; print_int (expected v)]) (f_vertices f)).
  (** 1944-1957 [print_edges]. *)
  Definition print_edges (f : foliated) : text :=
    concat (map (fun e => if edge_timelike (d_vinfo (f_delaunay f)) e then line [B "==> timelike"] else line [B "==> spacelike"])
              (f_edges f)).
  (** 2010-2021 [print]: the counts CGAL keeps. *)
  Definition print_foliated (f : foliated) : text :=
    let n {A} (l : list A) := print_unsigned (Z.of_nat (length l)) in
    let d := f_delaunay f in
    line [B "Triangulation has "; n (d_vertices d); B " vertices and "; n (d_edges d); B " edges and "; n (d_facets d);
          B " faces and "; n (d_cells d); B " simplices."].
  (** 1959-1966 [print_volume_per_timeslice]: the rows of Repair.v as text. *)
  Definition print_volumes (f : foliated) : checked text :=
    let! rows := print_volume_per_timeslice f in
    Val (concat (map (fun r => line [B "Timeslice "; print_int (fst r); B " has "; print_unsigned (snd r); B " spacelike faces."]) rows)).
End Listing.
