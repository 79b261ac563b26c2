(** Vocabulary of C127, independent of recap/clients: Snowflake accounts as trees of names. *)
From Coq Require Import String Ascii List NArith ZArith Bool.
From Verif Require Import PyVal Url SpecUrl BigQuery Dbapi Browse SpecBrowse Warehouse.
Import ListNotations.
Open Scope nat_scope.
Open Scope string_scope.
Open Scope list_scope.

(** Databases, schemas, tables. *)
Definition account_tree (A : account) : tree := Branch (map (fun d => (fst d, Branch (schema_trees (snd d)))) (ac_databases A)).
(** The database that the sessions of the user start in. *)
Definition starts_in (A : account) (d : string) (ss : schemas) : Prop := ac_default A = Some d /\ dget d (ac_databases A) = Some ss.
(** snowflake://location/name/name *)
Definition snowflake_url (loc : string) (names : list string) : string := ("snowflake" ++ "://" ++ loc ++ below_url names)%string.

(** The names of the projects, of the datasets of a project or of the tables of a dataset. *)
Inductive bq_holds (P : bq_projects) : list string -> list string -> Prop :=
| bh_projects : bq_holds P [] (map fst P)
| bh_datasets p ds : In (p, ds) P -> bq_holds P [p] (map fst ds)
| bh_tables p ds d ts : In (p, ds) P -> In (d, ts) ds -> bq_holds P [p; d] (map fst ts).
Definition bq_distinct (P : bq_projects) : Prop :=
  NoDup (map fst P) /\ Forall (fun p => NoDup (map fst (snd p))) P.
