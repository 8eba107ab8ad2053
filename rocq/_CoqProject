-Q theories Verif
theories/Base.v
theories/Parser_Model.v
theories/Parser_Spec.v
theories/Parser_Proofs.v
theories/Parser_Corollaries.v
theories/Mapping_Model.v
theories/Mapping_Proofs.v
theories/Parser_Props.v
theories/PyVal.v
theories/Utils_Model.v
theories/Utils_Spec.v
theories/Utils_Proofs.v
theories/Utils_Props.v
theories/Calc_Model.v
theories/Calc_Proofs.v
theories/Calc_Props.v
theories/Str_Model.v
theories/Str_Spec.v
theories/Str_Proofs.v
theories/Str_Props.v
theories/Regexp_Model.v
theories/Regexp_Props.v
theories/Agg_Model.v
theories/Agg_Spec.v
theories/Agg_Proofs.v
theories/Agg_Props.v
theories/Reduce_Model.v
theories/Reduce_Spec.v
theories/Reduce_Props.v
theories/Window_Model.v
theories/Window_Spec.v
theories/Window_Props.v
theories/Json_Model.v
theories/Json_Spec.v
theories/Json_Proofs.v
theories/Json_Props.v
theories/Float_Proofs.v
theories/Float_Props.v
theories/Date_Model.v
theories/Date_Spec.v
theories/Date_Proofs.v
theories/Date_Props.v
theories/Date_More.v
theories/Env_Model.v
theories/Env_Spec.v
theories/Env_Props.v
theories/Interp_Model.v
theories/Interp_Spec.v
theories/Interp_Props.v
theories/Fmt_Spec.v
theories/Fmt_Model.v
theories/Fmt_Proofs.v
theories/Fmt_Props.v
theories/Exec_Model.v
theories/Exec_Spec.v
theories/Exec_Props.v
theories/Hist_Model.v
theories/Hist_Spec.v
theories/Hist_Props.v
theories/Into_Model.v
theories/Into_Spec.v
theories/Into_Props.v
theories/Config_Model.v
theories/Config_Spec.v
theories/Config_Props.v
theories/Config_Merge.v
theories/Config_Session.v
theories/Config_Sets.v
theories/Temp_Model.v
theories/Temp_Spec.v
theories/Temp_Props.v
theories/Dec_Proofs.v
theories/Expr_Syntax.v
theories/Expr_Model.v
theories/Expr_Spec.v
theories/Expr_Proofs.v
theories/Expr_Props.v
theories/Where_Model.v
theories/Where_Spec.v
theories/Where_Proofs.v
theories/Where_Props.v
theories/Select_Model.v
theories/Select_Spec.v
theories/Select_Proofs.v
theories/Select_Props.v
theories/Select_Cases.v
theories/Union_Model.v
theories/Union_Spec.v
theories/Union_Proofs.v
theories/Union_Props.v
theories/Literal_Model.v
theories/Literal_Spec.v
theories/Literal_Proofs.v
theories/Literal_Props.v
theories/Insert_Model.v
theories/Insert_Spec.v
theories/Insert_Props.v
theories/Files_Model.v
theories/Files_Props.v
theories/Joins_Syntax.v
theories/Joins_Spec.v
theories/Joins_Model.v
theories/Joins_Proofs.v
theories/Joins_Rewrites.v
theories/Joins_Accept.v
theories/Joins_Props.v
theories/Having_Model.v
theories/Having_Spec.v
theories/Having_Proofs.v
theories/Having_Props.v
theories/Group_Syntax.v
theories/Group_Model.v
theories/Group_Spec.v
theories/Group_Proofs.v
theories/Group_Props.v
theories/With_Spec.v
theories/With_Model.v
theories/With_Proofs.v
theories/With_Props.v
theories/Args_Model.v
theories/Args_Proofs.v
theories/Args_Props.v
theories/Subq_Syntax.v
theories/Subq_Spec.v
theories/Subq_Model.v
theories/Subq_Proofs.v
theories/Subq_Props.v
theories/Cli_Model.v
theories/Cli_Props.v
theories/Cols_Syntax.v
theories/Cols_Spec.v
theories/Cols_Model.v
theories/Cols_Proofs.v
theories/Cols_Props.v
theories/Annot_Model.v
theories/Annot_Spec.v
theories/Annot_Props.v
theories/Api_Model.v
theories/Api_Spec.v
theories/Api_Props.v
theories/Codec_Model.v
theories/Codec_Spec.v
theories/Codec_Proofs.v
theories/Codec_Props.v
theories/Codec_Num.v
theories/Vars_Spec.v
theories/Vars_Model.v
theories/Vars_Proofs.v
theories/Vars_Order.v
theories/Vars_Props.v
theories/Load_Spec.v
theories/Load_Model.v
theories/Load_Proofs.v
theories/Load_Props.v
theories/Winq_Syntax.v
theories/Winq_Spec.v
theories/Winq_Model.v
theories/Winq_Proofs.v
theories/Winq_Props.v
theories/Stmt_Syntax.v
theories/Stmt_Model.v
theories/Stmt_Spec.v
theories/Stmt_Proofs.v
theories/Stmt_Props.v
theories/Limit_Model.v
theories/Limit_Props.v
theories/Raw_Spec.v
theories/Raw_Model.v
theories/Raw_Proofs.v
theories/Raw_Props.v
theories/Tight_Props.v
theories/Scope_Model.v
theories/Scope_Spec.v
theories/Scope_Proofs.v
theories/Scope_Order.v
theories/Scope_Props.v
theories/Turns_Model.v
theories/Turns_Spec.v
theories/Turns_Proofs.v
theories/Turns_Run.v
theories/Turns_Props.v
theories/Assign_Syntax.v
theories/Assign_Model.v
theories/Assign_Spec.v
theories/Assign_Proofs.v
theories/Assign_Props.v
theories/Nested_Syntax.v
theories/Nested_Spec.v
theories/Nested_Model.v
theories/Nested_Proofs.v
theories/Nested_Props.v
theories/Nulls_Props.v
theories/Table_Syntax.v
theories/Table_Model.v
theories/Table_Spec.v
theories/Table_Proofs.v
theories/Table_Props.v
theories/Globals_Model.v
theories/Globals_Spec.v
theories/Globals_Proofs.v
theories/Globals_Props.v
theories/Math_Model.v
theories/Math_Spec.v
theories/Math_Proofs.v
theories/Math_Props.v
theories/Inner_Syntax.v
theories/Inner_Model.v
theories/Inner_Spec.v
theories/Inner_Proofs.v
theories/Inner_Props.v
theories/Where_Types.v
theories/Whole_Syntax.v
theories/Cast_Syntax.v
theories/Cast_Where.v
theories/Whole_Model.v
theories/Cast_Spec.v
theories/Cast_Proofs.v
theories/Whole_Spec.v
theories/Whole_Proofs.v
theories/Whole_Props.v
theories/Whole_Cases.v
theories/Cast_Model.v
theories/Cast_Props.v
theories/Unix_Spec.v
theories/Unix_Model.v
theories/Unix_Props.v
theories/Regmatch_Model.v
theories/Regmatch_Props.v
theories/Collapse_Model.v
theories/Collapse_Spec.v
theories/Collapse_Props.v
theories/Collapse_Cases.v
theories/Alias_Model.v
theories/Alias_Spec.v
theories/Alias_Proofs.v
theories/Alias_Props.v
theories/Full_Syntax.v
theories/Full_Spec.v
theories/Full_Model.v
theories/Full_Proofs.v
theories/Full_Props.v
theories/Winsel_Syntax.v
theories/Winsel_Model.v
theories/Winsel_Spec.v
theories/Winsel_Proofs.v
theories/Winsel_Props.v
theories/Winsel_Cases.v
theories/Script_Syntax.v
theories/Script_Spec.v
theories/Script_Model.v
theories/Script_Proofs.v
theories/Script_Props.v
theories/Script_Cases.v
theories/Joinsel_Syntax.v
theories/Joinsel_Spec.v
theories/Joinsel_Model.v
theories/Joinsel_Proofs.v
theories/Joinsel_Props.v
theories/Joinsel_Cases.v
theories/Joinsel_Unread.v
theories/Joinsel_Unread_Cases.v
theories/Joingrp_Syntax.v
theories/Joingrp_Spec.v
theories/Joingrp_Model.v
theories/Joingrp_Proofs.v
theories/Joingrp_Props.v
theories/Joingrp_Cases.v
theories/Joingrp_Accept.v
theories/Joingrp_Comma.v
theories/Compose_Syntax.v
theories/Compose_Spec.v
theories/Compose_Model.v
theories/Compose_Proofs.v
theories/Compose_Windows.v
theories/Compose_Props.v
theories/Compose_Cases.v
theories/Jcont_Model.v
theories/Jcont_Spec.v
theories/Jcont_Props.v
theories/Session_Syntax.v
theories/Session_Spec.v
theories/Session_Model.v
theories/Session_Proofs.v
theories/Session_Props.v
theories/Session_Cases.v
theories/Joincol_Model.v
theories/Joincol_Spec.v
theories/Joincol_Proofs.v
theories/Joincol_Props.v
theories/Joincol_Cases.v
theories/Viewarg_Spec.v
theories/Viewarg_Model.v
theories/Viewarg_Proofs.v
theories/Viewarg_Props.v
theories/Viewarg_Cases.v
theories/Rowfun_Syntax.v
theories/Rowfun_Spec.v
theories/Rowfun_Model.v
theories/Rowfun_Props.v
theories/Yield_Syntax.v
theories/Yield_Spec.v
theories/Yield_Model.v
theories/Yield_Props.v
theories/Getval_Syntax.v
theories/Getval_Spec.v
theories/Getval_Model.v
theories/Getval_Props.v
