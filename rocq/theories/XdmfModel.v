(** The XDMF index of the result files: writeXdmfForHdf5Wrapper
    (src/utils/io/IO_HDF5.cpp:15-385) and the names of the files themselves.

    Of the XML text we keep what a reader uses: for every entry its name, its
    time, the extents and the list of data references.  The constant tags, the
    geometry (origin 0, spacing 1) and the data type are not modelled, nor the
    opening of the file.  C++ int is unbounded. *)
From Coq Require Import ZArith List Bool String Ascii DecimalString Decimal DecimalN.
From Verif Require Import Arith Par GridModel MpiModel IoModel.
Import ListNotations.
Open Scope Z_scope.

Fixpoint zeros (n : nat) (s : string) : string := match n with O => s | S m => String "0" (zeros m s) end.
(** outNum.width(7); outNum.fill('0'); outNum << iStep for iStep >= 0
    (IO_HDF5.cpp:160-163; IO_HDF5.h:246-249, 763-766). *)
Definition outNum (iStep : Z) : string :=
  let s := NilEmpty.string_of_uint (N.to_uint (Z.to_N iStep)) in zeros (7 - String.length s) s.

(** baseName and hdf5Filename (IO_HDF5.cpp:166-167; IO_HDF5.h:250-251, 767-768). *)
Definition baseName (outputPrefix : string) (iStep : Z) : string := (outputPrefix ++ "_" ++ outNum iStep)%string.
Definition hdf5Filename (outputPrefix : string) (iStep : Z) : string := (baseName outputPrefix iStep ++ ".h5")%string.
(** hdf5FilenameFull, the path given to H5Fcreate (IO_HDF5.h:252, 769). *)
Definition hdf5FilenameFull (outputDir outputPrefix : string) (iStep : Z) : string :=
  (outputDir ++ "/" ++ hdf5Filename outputPrefix iStep)%string.

(** xdmfFilename (IO_HDF5.cpp:123-132). *)
Definition xdmfFilename (outputPrefix : string) (singleStep : bool) (totalNumberOfSteps : Z) : string :=
  if singleStep then (baseName outputPrefix totalNumberOfSteps ++ ".xmf")%string else (outputPrefix ++ ".xmf")%string.

Section Sizes.
Variables (b3 : bool) (c : ioconf) (g : grid).

(** nxg, nyg, nzg without MPI (IO_HDF5.cpp:47-60). *)
Definition xdmf_dims : list Z :=
  let w := if ghostIncluded c then 2 * gw g else 0 in
  dims_of b3 (nz g + w) (ny g + w) (nx g + w).

(** nxg, nyg, nzg with MPI (40-44, 55-60, 62-111). *)
Definition xdmf_dims_mpi (tp : topo) : list Z :=
  let '(nxg, nyg, nzg) := (mx tp * nx g, my tp * ny g, mz tp * nz g) in
  let '(nxg, nyg, nzg) :=
    if ghostIncluded c then (nxg + 2 * gw g, nyg + 2 * gw g, nzg + 2 * gw g) else (nxg, nyg, nzg) in
  let '(nxg, nyg, nzg) :=
    if allghostIncluded c
    then (mx tp * (nx g + 2 * gw g), my tp * (ny g + 2 * gw g), mz tp * (nz g + 2 * gw g)) else (nxg, nyg, nzg) in
  let '(nxg, nyg, nzg) :=
    if negb (reassembleInFile c) then
      if negb b3 then
        if allghostIncluded c || ghostIncluded c
        then (nx g + 2 * gw g, (ny g + 2 * gw g) * mx tp * my tp, nzg)
        else (nx g, ny g * mx tp * my tp, nzg)
      else
        if allghostIncluded c || ghostIncluded c
        then (nx g + 2 * gw g, ny g + 2 * gw g, (nz g + 2 * gw g) * mx tp * my tp * mz tp)
        else (nx g, ny g, nz g * mx tp * my tp * mz tp)
    else (nxg, nyg, nzg) in
  dims_of b3 nzg nyg nxg.
End Sizes.

(** One <Grid> element: name, time value, topology, and per <Attribute> the name,
    the extents and the reference "file:/dataset" (174-372). *)
Record attribute := Attr { at_name : string; at_dims : list Z; at_file : string; at_set : string }.
Record entry := Entry { en_name : string; en_time : Z; en_dims : list Z; en_attrs : list attribute }.

(** The <Attribute> elements (224-372), in the order of the text. *)
Definition attributes (b3 mhd : bool) (dims : list Z) (file : string) : list attribute :=
  let field v := Attr (variables_names v) dims file (variables_names v) in
  [field ID; field IE; field IU; field IV] ++ (if b3 && negb mhd then [field IW] else []) ++
  (if mhd then [field IW; field IA; field IB; field IC] else []).

(** startStep, stopStep, deltaStep and the loop iStep <= stopStep (142-157). *)
Definition xdmf_steps (totalNumberOfSteps : Z) (singleStep : bool) : list Z :=
  let startStep := if singleStep then totalNumberOfSteps else 0 in
  let stopStep := if singleStep then totalNumberOfSteps + 1 else totalNumberOfSteps in
  zrange startStep (stopStep + 1).

(** writeXdmfForHdf5Wrapper; [dims] is [xdmf_dims] or [xdmf_dims_mpi]. *)
Definition writeXdmf (b3 mhd : bool) (dims : list Z) (outputPrefix : string) (totalNumberOfSteps : Z) (singleStep : bool)
  : list entry :=
  map (fun iStep => Entry (baseName outputPrefix iStep) iStep dims
                          (attributes b3 mhd dims (hdf5Filename outputPrefix iStep)))
      (xdmf_steps totalNumberOfSteps singleStep).
