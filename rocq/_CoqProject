-Q theories Verif

theories/M_Aggt.v
theories/M_App.v
theories/M_AsUri.v
theories/M_Base64.v
theories/M_Body.v
theories/M_Client.v
theories/M_Codec.v
theories/M_Contrib.v
theories/M_Declared.v
theories/M_Diff.v
theories/M_Getter.v
theories/M_Graph.v
theories/M_Invoke.v
theories/M_JBody.v
theories/M_JsonPtr.v
theories/M_Merge.v
theories/M_MergeRef.v
theories/M_ModelEq.v
theories/M_OldParse.v
theories/M_OldValidate.v
theories/M_Op.v
theories/M_Parse.v
theories/M_Patch.v
theories/M_Prepare.v
theories/M_Prim.v
theories/M_PrimText.v
theories/M_Quote.v
theories/M_Registry.v
theories/M_Render.v
theories/M_Request.v
theories/M_Scan.v
theories/M_Scope.v
theories/M_SpecTree.v
theories/M_SpecVal.v
theories/M_Time.v
theories/M_Upgrade.v
theories/M_Url.v
theories/M_Validate.v
theories/M_Yaml.v
theories/P_Address.v
theories/P_Aggt.v
theories/P_AggtAll.v
theories/P_AggtAlone.v
theories/P_AggtEnds.v
theories/P_AggtGather.v
theories/P_AggtMerge.v
theories/P_AggtRegular.v
theories/P_App.v
theories/P_AsUri.v
theories/P_Back.v
theories/P_Back2.v
theories/P_Base64.v
theories/P_Body.v
theories/P_Body2.v
theories/P_Body3.v
theories/P_Body4.v
theories/P_Body5.v
theories/P_Body6.v
theories/P_Client.v
theories/P_Codec.v
theories/P_Compare.v
theories/P_Compose.v
theories/P_Compose2.v
theories/P_Contrib.v
theories/P_Convert.v
theories/P_Convert2.v
theories/P_Convert3.v
theories/P_Convert4.v
theories/P_Convert5.v
theories/P_Copies.v
theories/P_Create.v
theories/P_Create2.v
theories/P_Create3.v
theories/P_Create4.v
theories/P_Create5.v
theories/P_Create6.v
theories/P_Create7.v
theories/P_Create8.v
theories/P_Create9.v
theories/P_CreateBack.v
theories/P_CreateEx.v
theories/P_Cycles.v
theories/P_Declared.v
theories/P_Declared2.v
theories/P_Declared3.v
theories/P_Declared4.v
theories/P_Deep.v
theories/P_Diff.v
theories/P_Dump.v
theories/P_FileUrl.v
theories/P_Getter.v
theories/P_Graph.v
theories/P_Grown.v
theories/P_Grown2.v
theories/P_Int.v
theories/P_Invoke.v
theories/P_Invoke2.v
theories/P_Invoke3.v
theories/P_JBody.v
theories/P_JBody2.v
theories/P_JBody3.v
theories/P_JBody4.v
theories/P_JBody5.v
theories/P_JsonPtr.v
theories/P_Merge.v
theories/P_MergeRef.v
theories/P_MergeShape.v
theories/P_OldParse.v
theories/P_OldValidate.v
theories/P_Op.v
theories/P_Order.v
theories/P_Parse.v
theories/P_Patch.v
theories/P_PatchOp.v
theories/P_Prepare.v
theories/P_Prepare2.v
theories/P_Prepare3.v
theories/P_Prepare4.v
theories/P_Prepare5.v
theories/P_Prepare6.v
theories/P_Prepare7.v
theories/P_Prim.v
theories/P_PrimAll.v
theories/P_PrimLeaf.v
theories/P_PrimMono.v
theories/P_PrimObj.v
theories/P_Quote.v
theories/P_Render.v
theories/P_RenderAcc.v
theories/P_RenderAll.v
theories/P_RenderGen.v
theories/P_Request.v
theories/P_Resolve.v
theories/P_Scan.v
theories/P_Scope.v
theories/P_SpecBase.v
theories/P_SpecTree.v
theories/P_Time.v
theories/P_Typed.v
theories/P_Upgrade.v
theories/P_UpgradeDoc.v
theories/P_UpgradeEnd.v
theories/P_UpgradeFold.v
theories/P_UpgradeObj.v
theories/P_Url.v
theories/P_Validate.v
theories/P_Wf.v
theories/PyBase.v
theories/PyFacts.v
theories/PyInt.v
theories/PyJson.v
theories/S_Address.v
theories/S_Aggregated.v
theories/S_Aggt.v
theories/S_App.v
theories/S_AsUri.v
theories/S_Back.v
theories/S_Base64.v
theories/S_Body.v
theories/S_Client.v
theories/S_Codec.v
theories/S_Compose.v
theories/S_Contrib.v
theories/S_Convert.v
theories/S_Copies.v
theories/S_Create.v
theories/S_Cycles.v
theories/S_Declared.v
theories/S_Diff.v
theories/S_FileUrl.v
theories/S_Getter.v
theories/S_Graph.v
theories/S_Invoke.v
theories/S_JBody.v
theories/S_JsonPtr.v
theories/S_Merge.v
theories/S_MergeRef.v
theories/S_OldParse.v
theories/S_OldValidate.v
theories/S_Op.v
theories/S_Parse.v
theories/S_Patch.v
theories/S_Prepare.v
theories/S_Prim.v
theories/S_PrimKinds.v
theories/S_Quote.v
theories/S_Render.v
theories/S_Request.v
theories/S_Resolve.v
theories/S_Scan.v
theories/S_Scope.v
theories/S_SpecTree.v
theories/S_Swagger12.v
theories/S_Swagger20.v
theories/S_Time.v
theories/S_Typed.v
theories/S_Upgrade.v
theories/S_Url.v
theories/S_Validate.v
theories/T_Address.v
theories/T_Aggregated.v
theories/T_Aggt.v
theories/T_AggtAlone.v
theories/T_App.v
theories/T_AsUri.v
theories/T_Back.v
theories/T_Back2.v
theories/T_Body.v
theories/T_Client.v
theories/T_Codec.v
theories/T_Compose.v
theories/T_Contrib.v
theories/T_Copies.v
theories/T_Create.v
theories/T_Cycles.v
theories/T_Declared.v
theories/T_Diff.v
theories/T_FileUrl.v
theories/T_Getter.v
theories/T_Graph.v
theories/T_Invoke.v
theories/T_JBody.v
theories/T_JBody2.v
theories/T_JsonPtr.v
theories/T_Merge.v
theories/T_MergeRef.v
theories/T_ModelEq.v
theories/T_OldParse.v
theories/T_OldValidate.v
theories/T_Op.v
theories/T_Opened.v
theories/T_Parse.v
theories/T_Patch.v
theories/T_Prepare.v
theories/T_Prepare12.v
theories/T_PrimKinds.v
theories/T_PrimLeaf.v
theories/T_PrimObj.v
theories/T_PrimText.v
theories/T_Registry.v
theories/T_Render.v
theories/T_Request.v
theories/T_Resolve.v
theories/T_Scan.v
theories/T_Scope.v
theories/T_SpecTree.v
theories/T_Swagger12.v
theories/T_Swagger20.v
theories/T_Time.v
theories/T_Upgrade.v
theories/T_Url.v
theories/T_Validate.v
theories/T_Yaml.v
