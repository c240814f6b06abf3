(** * Model of the paths of a node (/repo/src/util/lc_util.go:386-404). *)
From Coq Require Import List ZArith.
From Coq Require Import Strings.Byte Strings.String.
From Verif Require Import Base KeyStoreModel.
Import ListNotations.
Local Open Scope list_scope.

(** lc_get_node_conf_path, lc_util.go:386-388. CLS_NODE is 1 (const_util.go:26). *)
Definition node_conf_path (node_id : bytes) : res bytes := let? d := key_dir 1 node_id in Ok (d ++ str "/node.conf").
(** lc_get_lib_dir, lc_util.go:390-392, with DEFAULT_LIB_DIR of const_util.go:11. *)
Definition lib_dir (node_id : bytes) : bytes := str "/var/lib/poodle" ++ str "/" ++ node_id.
(** lc_get_transaction_log_dir, lc_util.go:394-396. *)
Definition transaction_log_dir (node_id : bytes) : bytes := lib_dir node_id ++ str "/transaction".
(** lc_get_domain_dir, lc_util.go:398-400. *)
Definition domain_dir (node_id domain_name : bytes) : bytes := lib_dir node_id ++ str "/domain/" ++ domain_name.
(** lc_get_log_dir, lc_util.go:402-404, with DEFAULT_LOG_DIR of const_util.go:12. *)
Definition log_dir (node_id : bytes) : bytes := str "/var/log/poodle" ++ str "/" ++ node_id.
