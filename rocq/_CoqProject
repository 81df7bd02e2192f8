-Q theories Verif
theories/Dict.v
theories/LayoutTypes.v
theories/LayoutModel.v
theories/LayoutTree.v
theories/LayoutDeriv.v
theories/LayoutExec.v
theories/LayoutFacts.v
theories/BodySpec.v
theories/LayoutSettled.v
theories/LayoutContext.v
theories/Strings.v
theories/LayoutHandlers.v
theories/DisplaySpec.v
theories/LayoutShape.v
theories/LayoutOps.v
theories/LayoutNoCrash.v
theories/LayoutStep.v
theories/LayoutObs.v
theories/LayoutInv.v
theories/GuardSpec.v
theories/LayoutMain.v
theories/LayoutLive.v
theories/LayoutPending.v
theories/LayoutRun.v
theories/LayoutClose.v
theories/HooksModel.v
theories/HooksSteady.v
theories/LayoutHistory.v
theories/LayoutReach.v
theories/DisplayFacts.v
theories/LayoutDemo.v
theories/ChildrenFacts.v
theories/LayoutFindings.v
theories/LayoutProps.v
theories/MountSpec.v
theories/FirstMount.v
theories/FirstRoot.v
theories/MountProps.v
theories/HookCalls.v
theories/HookCallsFacts.v
theories/HookHistory.v
theories/HookResults.v
theories/HookProps.v
theories/StrictEq.v
theories/EffectModel.v
theories/EffectProps.v
theories/AsyncEffect.v
theories/AsyncEffectProps.v
theories/AsyncModel.v
theories/AsyncFacts.v
theories/AsyncProps.v
theories/AsyncDelivery.v
theories/EventModel.v
theories/EventFacts.v
theories/EventProps.v
theories/AckProps.v
theories/QueueModel.v
theories/EventInspect.v
theories/VdomModel.v
theories/SchemaProps.v
theories/PyStr.v
theories/HtmlAttrs.v
theories/HtmlModel.v
theories/OptionModel.v
theories/JsModules.v
theories/JsNames.v
theories/FileModel.v
theories/WidgetModel.v
theories/AsgiModel.v
theories/ClientTimers.v
theories/ClientModel.v
theories/ToolModel.v
theories/WheelModel.v
theories/MinifyModel.v
theories/EventObject.v
theories/AsyncTree.v
theories/AsyncTreeFacts.v
theories/AsyncTreeInv.v
theories/AsyncTreeProps.v
theories/AsyncApartFacts.v
theories/AsyncApartInv.v
theories/AsyncApart.v
theories/AsyncTreeLocks.v
theories/AsyncTreeSettled.v
theories/Location.v
theories/RewriteKeys.v
theories/RewriteLines.v
theories/ImportChild.v
theories/ImportHook.v
theories/ImportTree.v
theories/PyscriptDom.v
theories/PyscriptCode.v
theories/PyscriptSetup.v
theories/PyscriptSpaces.v
theories/PageSetup.v
theories/Settings.v
theories/ClientMessages.v
theories/ComponentModel.v
theories/EndToEnd.v
theories/HandlerCalls.v
theories/HookStack.v
theories/AsyncClose.v
theories/Bookkeeping.v
theories/Wheel.v
theories/ModuleCalls.v
theories/MergedCalls.v
theories/Serving.v
theories/AsyncEffectRestart.v
theories/TestingLogs.v
theories/RewriteFiles.v
theories/KeyWarnings.v
theories/DebugValue.v
theories/InlineScripts.v
theories/AsyncEffectEnds.v
theories/AsyncCoalesce.v
theories/HotSwap.v
theories/DebugMode.v
theories/UpdateScope.v
theories/Applications.v
theories/InputElement.v
theories/BrowserNodes.v
theories/OwnTargets.v
theories/Polling.v
theories/RendersEnd.v
theories/SeqNumbers.v
theories/DeprecatedOpts.v
theories/DisplayFixture.v
theories/EffectsStarted.v
theories/SessionConnection.v
